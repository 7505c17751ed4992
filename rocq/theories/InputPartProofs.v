(** Dynamic parameters, moves, box moves and files. *)
From Coq Require Import Reals ZArith List Bool Lia ZifyBool Sorted String.
From Verif Require Import TextModel TextProofs StringsModel ScalingModel PyonModel MatchModel MatchSpec MatchProofs GeomModel GeomProofs SimModel OptModel InputModel InputSpec InputCallProofs.
Import ListNotations.
Open Scope Z_scope.

Ltac gets := rewrite ?get_nth; repeat match goal with |- context [index ?k ?ns] => let r := eval vm_compute in (index k ns) in change (index k ns) with r end; cbn [nth].
Ltac values vs B := repeat (destruct vs as [|? vs]; [exact (False_ind _ B) || (exfalso; tauto)|]); destruct vs; [|exfalso; tauto].

Section Parts.
Context {Arr Shp Obs Bulk : Type}.
Notation any := (@any Arr Shp Obs Bulk).
Notation mt := (matcher any).
Variable of_float : list Z -> R.
Notation num := (num of_float).
Notation positive_num := (positive_num of_float).
Notation real_m := (@real_m Arr Shp Obs Bulk of_float).

(** *** Values *)
Lemma all_nil {A} (a : A) : all_true [] a. Proof. constructor. Qed.
Lemma all_cons {A} f fs (a : A) : all_true (f :: fs) a <-> f a = true /\ all_true fs a.
Proof. unfold all_true. split; [intros H; inversion H; auto|intros [H1 H2]; constructor; auto]. Qed.
Lemma c_real (v : any) x : as_real v = Some x -> v = AReal x. Proof. destruct v; cbn; try discriminate. intros H. injection H as ->. reflexivity. Qed.
Lemma c_opt_real (v : any) x : as_opt_real v = Some x -> v = AOptReal x. Proof. destruct v; cbn; try discriminate. intros H. injection H as ->. reflexivity. Qed.
Lemma c_size (v : any) x : as_size v = Some x -> v = ASize x. Proof. destruct v; cbn; try discriminate. intros H. injection H as ->. reflexivity. Qed.
Lemma c_opt_size (v : any) x : as_opt_size v = Some x -> v = AOptSize x. Proof. destruct v; cbn; try discriminate. intros H. injection H as ->. reflexivity. Qed.
Lemma c_bool (v : any) x : as_bool v = Some x -> v = ABool x. Proof. destruct v; cbn; try discriminate. intros H. injection H as ->. reflexivity. Qed.
Lemma c_text (v : any) x : as_text v = Some x -> v = AText x. Proof. destruct v; cbn; try discriminate. intros H. injection H as ->. reflexivity. Qed.
Lemma c_opt_text (v : any) x : as_opt_text v = Some x -> v = AOptText x. Proof. destruct v; cbn; try discriminate. intros H. injection H as ->. reflexivity. Qed.
Lemma c_version (v : any) x : as_version v = Some x -> v = AVersion x. Proof. destruct v; cbn; try discriminate. intros H. injection H as ->. reflexivity. Qed.
Lemma c_dyn (v : any) x : as_dyn v = Some x -> v = ADyn x. Proof. destruct v; cbn; try discriminate. intros H. injection H as ->. reflexivity. Qed.
Lemma c_piece (v : any) x : as_piece v = Some x -> v = APiece (fst x) (snd x). Proof. destruct v; cbn; try discriminate. intros H. injection H as <-. reflexivity. Qed.
Lemma c_move (v : any) x : as_move v = Some x -> v = AMove x. Proof. destruct v; cbn; try discriminate. intros H. injection H as ->. reflexivity. Qed.
Lemma c_moves (v : any) x : as_moves v = Some x -> v = AMoves x. Proof. destruct v; cbn; try discriminate. intros H. injection H as ->. reflexivity. Qed.
Lemma c_direction (v : any) x : as_direction v = Some x -> v = ADirection x. Proof. destruct v; cbn; try discriminate. intros H. injection H as ->. reflexivity. Qed.
Lemma c_scaler (v : any) x : as_scaler v = Some x -> v = AScaler x. Proof. destruct v; cbn; try discriminate. intros H. injection H as ->. reflexivity. Qed.
Lemma c_style (v : any) x : as_style v = Some x -> v = AStyle x. Proof. destruct v; cbn; try discriminate. intros H. injection H as ->. reflexivity. Qed.
Lemma c_writer (v : any) x : as_writer v = Some x -> v = AWriter x. Proof. destruct v; cbn; try discriminate. intros H. injection H as ->. reflexivity. Qed.
Lemma c_writers (v : any) x : as_writers v = Some x -> v = AWriters x. Proof. destruct v; cbn; try discriminate. intros H. injection H as ->. reflexivity. Qed.
Lemma c_recorder (v : any) x : as_recorder v = Some x -> v = ARecorder x. Proof. destruct v; cbn; try discriminate. intros H. injection H as ->. reflexivity. Qed.
Lemma c_recorders (v : any) x : as_recorders v = Some x -> v = ARecorders x. Proof. destruct v; cbn; try discriminate. intros H. injection H as ->. reflexivity. Qed.
Lemma c_obs (v : any) x : as_obs v = Some x -> v = AObs x. Proof. destruct v; cbn; try discriminate. intros H. injection H as ->. reflexivity. Qed.
Lemma c_observables (v : any) x : as_observables v = Some x -> v = AObservables x. Proof. destruct v; cbn; try discriminate. intros H. injection H as ->. reflexivity. Qed.
Lemma c_bulk (v : any) x : as_bulk v = Some x -> v = ABulk x. Proof. destruct v; cbn; try discriminate. intros H. injection H as ->. reflexivity. Qed.
Lemma c_bulks (v : any) x : as_bulks v = Some x -> v = ABulks x. Proof. destruct v; cbn; try discriminate. intros H. injection H as ->. reflexivity. Qed.
Lemma c_shape (v : any) x : as_shape v = Some x -> v = AShape x. Proof. destruct v; cbn; try discriminate. intros H. injection H as ->. reflexivity. Qed.
Lemma c_arr (v : any) x : as_arr v = Some x -> v = AArr x. Proof. destruct v; cbn; try discriminate. intros H. injection H as ->. reflexivity. Qed.
Lemma c_run (v : any) x : as_run v = Some x -> v = ARun x. Proof. destruct v; cbn; try discriminate. intros H. injection H as ->. reflexivity. Qed.
Lemma c_runs (v : any) x : as_runs v = Some x -> v = ARuns x. Proof. destruct v; cbn; try discriminate. intros H. injection H as ->. reflexivity. Qed.
Lemma c_walls (v : any) x : as_walls v = Some x -> v = AWalls x. Proof. destruct v; cbn; try discriminate. intros H. injection H as ->. reflexivity. Qed.
Lemma c_threads (v : any) x : as_threads v = Some x -> v = AThreads x. Proof. destruct v; cbn; try discriminate. intros H. injection H as ->. reflexivity. Qed.
Lemma c_divisions (v : any) x : as_divisions v = Some x -> v = ADivisions x. Proof. destruct v; cbn; try discriminate. intros H. injection H as ->. reflexivity. Qed.
Lemma all_of {A} (cast : any -> option A) (w : A -> any) : (forall v x, cast v = Some x -> v = w x) -> (forall x, cast (w x) = Some x) -> forall l xs, as_all cast l = Some xs <-> l = map w xs.
Proof.
  intros C W. induction l as [|v l IH]; intros xs; cbn [as_all].
  - split; [intros H; injection H as <-; reflexivity|]. destruct xs; [reflexivity|discriminate].
  - rewrite obind_some. split.
    + intros (x & Hx & H). apply obind_some in H. destruct H as (r & Hr & H). injection H as <-. apply C in Hx. apply IH in Hr. subst. reflexivity.
    + intros H. destruct xs as [|x xs]; [discriminate|]. cbn [map] in H. injection H as -> ->. exists x. split; [apply W|]. apply obind_some. exists xs. split; [apply IH; reflexivity|reflexivity].
Qed.

Lemma real_denotes : denotes (real_m [] AReal) AReal num.
Proof.
  intros n x _. unfold InputModel.real_m. rewrite float_node. unfold InputSpec.num. split.
  - intros (y & H & _ & E). injection E as ->. exact H.
  - intros H. exists x. split; [exact H|]. split; [constructor|reflexivity].
Qed.
Lemma positive_denotes {A} (h : R -> A) (w : A -> any) : (forall y z, w y = w z -> y = z) -> (forall y z, h y = h z -> y = z) -> forall n x, mt_match any (real_m [realPositive] (fun x => w (h x))) n = Match (w x) <-> exists y, positive_num n y /\ x = h y.
Proof.
  intros Wi Hi n x. unfold InputModel.real_m. rewrite float_node. unfold InputSpec.positive_num, InputSpec.num. split.
  - intros (y & H & F & E). apply all_cons in F. destruct F as [F _]. apply Rltb_true in F. exists y. split; [split; [exact H|exact F]|apply Wi; exact E].
  - intros (y & [H F] & ->). exists y. split; [exact H|]. split; [apply all_cons; split; [apply Rltb_true; exact F|constructor]|reflexivity].
Qed.
Lemma positive_real : denotes (real_m [realPositive] AReal) AReal positive_num.
Proof.
  intros n x _. rewrite (positive_denotes (fun x => x) AReal) by congruence. split; [intros (y & H & ->); exact H|intros H; exists x; auto].
Qed.
Lemma size_id i : regular (NInt i) -> 0 <= i -> to_size i = i.
Proof. intros R H. inversion R; subst. unfold to_size. apply Z.mod_small. lia. Qed.
Lemma count_iff {A} (h : Z -> A) (w : A -> any) n x : (forall y z, w y = w z -> y = z) -> regular n ->
  (mt_match any (match_int any [isPositive] (fun i => w (h (to_size i)))) n = Match (w x) <-> exists i, count n i /\ x = h i).
Proof.
  intros Wi R. rewrite int_node. unfold count. split.
  - intros (i & -> & F & E). apply all_cons in F. destruct F as [F _]. unfold isPositive in F. exists i. split; [split; [reflexivity|lia]|]. rewrite size_id in E by (auto; lia). apply Wi. exact E.
  - intros (i & [-> P] & ->). exists i. split; [reflexivity|]. split; [apply all_cons; split; [unfold isPositive; lia|constructor]|]. rewrite size_id by (auto; lia). reflexivity.
Qed.
Lemma count_denotes : denotes (match_int any [isPositive] (fun i => ASize (to_size i))) (@ASize Arr Shp Obs Bulk) count.
Proof. intros n x R. rewrite (count_iff (fun i => i) (@ASize Arr Shp Obs Bulk) n x ltac:(congruence) R). split; [intros (i & H & ->); exact H|eauto]. Qed.
Lemma wrapped_denotes : denotes (match_int any [] (fun i => ASize (to_size i))) (@ASize Arr Shp Obs Bulk) wrapped.
Proof. intros n x R. rewrite int_node. unfold wrapped, to_size. split; [intros (i & -> & _ & E); injection E as ->; eauto|intros (i & -> & ->); exists i; repeat split; constructor]. Qed.
Lemma start_denotes : denotes (match_int any [isNonNegative] (fun i => ASize (to_size i))) (@ASize Arr Shp Obs Bulk) (fun m i => m = NInt i /\ 0 <= i).
Proof.
  intros n x R. rewrite int_node. split.
  - intros (i & -> & F & E). apply all_cons in F. destruct F as [F _]. unfold isNonNegative in F. rewrite size_id in E by (auto; lia). injection E as ->. split; [reflexivity|lia].
  - intros [-> H]. exists x. split; [reflexivity|]. split; [apply all_cons; split; [unfold isNonNegative; lia|constructor]|]. rewrite size_id by auto. reflexivity.
Qed.
Lemma bool_denotes : denotes (match_bool any None ABool) (@ABool Arr Shp Obs Bulk) yes_no.
Proof. intros n x _. rewrite bool_node. unfold yes_no. split; [intros (b & -> & _ & E); injection E as ->; reflexivity|intros ->; exists x; auto]. Qed.
Lemma file_denotes {A} (h : text -> A) (w : A -> any) n x : (forall y z, w y = w z -> y = z) -> (mt_match any (match_string any [nonEmpty] (fun s => w (h s))) n = Match (w x) <-> exists t, some_text n t /\ x = h t).
Proof.
  intros Wi. rewrite string_node. unfold some_text. split.
  - intros (s & -> & F & E). apply all_cons in F. destruct F as [F _]. exists s. split; [split; [reflexivity|]|apply Wi; exact E]. destruct s; [discriminate|discriminate].
  - intros (t & [-> N] & ->). exists t. split; [reflexivity|]. split; [apply all_cons; split; [destruct t; [contradiction N; reflexivity|reflexivity]|constructor]|reflexivity].
Qed.
Lemma filename_denotes : denotes filename (@AText Arr Shp Obs Bulk) some_text.
Proof. intros n x _. unfold filename. rewrite (file_denotes (fun t => t) AText) by congruence. split; [intros (t & H & ->); exact H|eauto]. Qed.
Lemma none_denotes (v : any) n : mt_match any (match_none any v) n = Match v <-> n = NNone.
Proof. rewrite none_node. tauto. Qed.
Lemma list_denotes {A} (m : mt) (w : A -> any) (ws : list A -> any) cast P fs : denotes m w P -> (forall v x, cast v = Some x -> v = w x) -> (forall x, cast (w x) = Some x) -> (forall l, ws l <> ABad) -> (forall y z, ws y = ws z -> y = z) ->
  denotes (array_m m fs (fun l => x <- as_all cast l ;; Some (ws x))) ws (fun n l => list_of P n l /\ all_true fs (map w l)).
Proof.
  intros D C W Nb Wi n xs R. unfold array_m. rewrite array_node. unfold list_of. split.
  - intros (l & vs & -> & H & E). apply array_iff in H. destruct H as [H F]. cbn [am_element am_filters] in *. symmetry in E. apply made_some in E; [|apply Nb]. apply obind_some in E. destruct E as (ys & E & X). apply (all_of cast w C W) in E. injection X as X. apply Wi in X. subst ys vs. split; [|exact F]. exists l. split; [reflexivity|].
    inversion R as [| | | | |? Rl| |]; subst. clear R F. revert xs H. induction Rl as [|n l Rn Rl IH]; intros [|x xs] H; inversion H; subst; constructor; auto. apply (D n x Rn). assumption.
  - intros ((l & -> & H) & F). exists l, (map w xs). split; [reflexivity|]. split; [apply array_iff; split; [|exact F]|symmetry; apply made_some; [apply Nb|]; apply obind_some; exists xs; split; [apply (all_of cast w C W); reflexivity|reflexivity]].
    inversion R as [| | | | |? Rl| |]; subst. clear R F. cbn [am_element]. revert xs H. induction Rl as [|n l Rn Rl IH]; intros [|x xs] H; inversion H; subst; constructor; auto. apply (D n x Rn). assumption.
Qed.


Ltac unbind M := repeat (apply obind_some in M; let x := fresh "x" in let E := fresh "E" in destruct M as (x & E & M)).
Ltac uncast := repeat match goal with
  | E : as_real ?v = Some _ |- _ => apply c_real in E; subst v
  | E : as_opt_real ?v = Some _ |- _ => apply c_opt_real in E; subst v
  | E : as_size ?v = Some _ |- _ => apply c_size in E; subst v
  | E : as_opt_size ?v = Some _ |- _ => apply c_opt_size in E; subst v
  | E : as_bool ?v = Some _ |- _ => apply c_bool in E; subst v
  | E : as_text ?v = Some _ |- _ => apply c_text in E; subst v
  | E : as_opt_text ?v = Some _ |- _ => apply c_opt_text in E; subst v
  | E : as_version ?v = Some _ |- _ => apply c_version in E; subst v
  | E : as_dyn ?v = Some _ |- _ => apply c_dyn in E; subst v
  | E : as_direction ?v = Some _ |- _ => apply c_direction in E; subst v
  | E : as_style ?v = Some _ |- _ => apply c_style in E; subst v
  | E : as_writers ?v = Some _ |- _ => apply c_writers in E; subst v
  | E : as_recorders ?v = Some _ |- _ => apply c_recorders in E; subst v
  | E : as_observables ?v = Some _ |- _ => apply c_observables in E; subst v
  | E : as_bulks ?v = Some _ |- _ => apply c_bulks in E; subst v
  | E : as_shape ?v = Some _ |- _ => apply c_shape in E; subst v
  | E : as_arr ?v = Some _ |- _ => apply c_arr in E; subst v
  | E : as_runs ?v = Some _ |- _ => apply c_runs in E; subst v
  | E : as_walls ?v = Some _ |- _ => apply c_walls in E; subst v
  | E : as_threads ?v = Some _ |- _ => apply c_threads in E; subst v
  | E : as_divisions ?v = Some _ |- _ => apply c_divisions in E; subst v
  end.
Ltac den := first [exact real_denotes | exact positive_real | exact count_denotes | exact wrapped_denotes | exact start_denotes | exact bool_denotes | exact filename_denotes].
Ltac defaults := first [reflexivity | split; [reflexivity|lia] | left; exists 0; split; reflexivity | left; split; reflexivity | exists []; split; [reflexivity|constructor]].
Ltac reg := first [apply Reg_none | apply Reg_bool | apply Reg_string | apply Reg_int; lia | apply Reg_array; repeat constructor; lia | repeat constructor].
Ltac req Ra := eapply req_iff'; [den|exact Ra|eassumption].
Ltac opt Ra := eapply opt_iff; [den|exact Ra| | | |eassumption]; [reg|defaults|congruence].
Ltac cls SG R := rewrite class_object with (sg := SG); [|reflexivity|reflexivity|exact R].
Ltac sigs B := unfold InputSpec.anisotropic_sig, InputSpec.integration_sig, InputSpec.overlap_sig, InputSpec.rampack_sig in B.
Ltac fwd R := intros (a & vs & O & B & F & M); pose proof (object_regular _ _ _ _ R O) as Ra; sigs B; cbn [binds fst] in B; values vs B; decompose [and] B; clear B; symmetry in M; apply made_some in M; [|discriminate]; revert M F; gets; intros M F; unbind M; uncast.

(** *** Dynamic parameters *)
Definition some_dyn (d : dyn) : any := ADyn (Some d).
Lemma const_iff n d : regular n -> (mt_match any (const_class of_float) n = Match (some_dyn d) <-> exists a x, object n "const" [("value", true)]%string a /\ arg a "value" num x /\ d = DConst x).
Proof.
  intros R. unfold const_class. cls [("value", true)]%string R. split.
  - fwd R. injection M as <-. exists a, x. split; [exact O|]. split; [req Ra|reflexivity].
  - intros (a & x & O & A & ->). pose proof (object_regular _ _ _ _ R O) as Ra. exists a, [AReal x]. split; [exact O|]. split; [cbn [binds fst]; split; [req Ra|exact Logic.I]|]. split; [constructor|]. gets. reflexivity.
Qed.
Lemma linear_iff n d : regular n -> (mt_match any (linear_class of_float) n = Match (some_dyn d) <-> exists a s i, object n "linear" [("slope", true); ("intercept", false)]%string a /\ arg a "slope" num s /\ arg_or a "intercept" num 0%R i /\ d = DLinear s i).
Proof.
  intros R. unfold linear_class. cls [("slope", true); ("intercept", false)]%string R. split.
  - fwd R. injection M as <-. exists a, x, x0. split; [exact O|]. split; [req Ra|]. split; [opt Ra|reflexivity].
  - intros (a & s & i & O & A & A1 & ->). pose proof (object_regular _ _ _ _ R O) as Ra. exists a, [AReal s; AReal i]. split; [exact O|]. split; [cbn [binds fst]; split; [req Ra|split; [opt Ra|exact Logic.I]]|]. split; [constructor|]. gets. reflexivity.
Qed.
Lemma exp_iff n d : regular n -> (mt_match any (exp_class of_float) n = Match (some_dyn d) <-> exists a b r, object n "exp" [("a0", true); ("rate", true)]%string a /\ arg a "a0" num b /\ arg a "rate" num r /\ d = DExp b r).
Proof.
  intros R. unfold exp_class. cls [("a0", true); ("rate", true)]%string R. split.
  - fwd R. injection M as <-. exists a, x, x0. split; [exact O|]. split; [req Ra|]. split; [req Ra|reflexivity].
  - intros (a & s & i & O & A & A1 & ->). pose proof (object_regular _ _ _ _ R O) as Ra. exists a, [AReal s; AReal i]. split; [exact O|]. split; [cbn [binds fst]; split; [req Ra|split; [req Ra|exact Logic.I]]|]. split; [constructor|]. gets. reflexivity.
Qed.

Ltac alts := rewrite !Exists_cons, Exists_nil.
Ltac typeds := repeat (apply Forall_cons; [first [apply typed_class|apply typed_float|apply typed_int|apply typed_none|apply typed_string|apply typed_array|apply typed_bool]|]); apply Forall_nil.
Lemma specific_denotes : denotes (match_alternative any (specific of_float)) some_dyn (simple of_float).
Proof.
  intros n d R. change (specific of_float) with (alternative_of [const_float (Arr := Arr) (Shp := Shp) (Obs := Obs) (Bulk := Bulk) of_float; const_class of_float; linear_class of_float; exp_class of_float]).
  rewrite alt_iff by (reflexivity || typeds). alts. rewrite (const_iff n d R), (linear_iff n d R), (exp_iff n d R). unfold const_float, InputModel.real_m. rewrite float_node. split.
  - intros [(x & H & _ & E)|[(a & x & O & A & ->)|[(a & s & i & O & A & A' & ->)|[(a & b & r & O & A & A' & ->)|[]]]]].
    + injection E as ->. apply S_number. exact H.
    + eapply S_const; eauto.
    + eapply S_linear; eauto.
    + eapply S_exp; eauto.
  - intros [n' x H|n' a x O A|n' a s i O A A'|n' a b r O A A'].
    + left. exists x. split; [exact H|]. split; [constructor|reflexivity].
    + right. left. eauto.
    + right. right. left. exists a, s, i. auto.
    + right. right. right. left. exists a, b, r. auto.
Qed.
Definition a_piece (p : Z * dyn) : any := APiece (fst p) (snd p).
Lemma piece_denotes : denotes (piece_class of_float) a_piece (piece of_float).
Proof.
  intros n p R. unfold piece_class. cls [("start", true); ("param", true)]%string R. unfold piece. split.
  - fwd R. subst. injection M as <- <-. exists a. split; [exact O|]. split; [req Ra|]. eapply (req_iff' _ _ some_dyn); [exact specific_denotes|exact Ra|eassumption].
  - intros (a & O & A & A'). pose proof (object_regular _ _ _ _ R O) as Ra. exists a, [ASize (fst p); some_dyn (snd p)]. split; [exact O|]. split; [cbn [binds fst]; split; [req Ra|split; [|exact Logic.I]]|].
    + eapply (req_iff' _ _ some_dyn); [exact specific_denotes|exact Ra|eassumption].
    + split; [constructor|]. gets. reflexivity.
Qed.
Lemma ascending_iff l : ascending l = true <-> StronglySorted Z.lt (map fst l).
Proof.
  induction l as [|a l IH]; [split; [constructor|reflexivity]|]. destruct l as [|b l]; [split; [intros _; repeat constructor|reflexivity]|]. change (ascending (a :: b :: l)) with (negb (fst b <=? fst a) && ascending (b :: l)). rewrite andb_true_iff, IH. cbn [map]. split.
  - intros [H S]. constructor; [exact S|]. inversion S as [|? ? S1 S2]; subst. constructor; [lia|]. eapply Forall_impl; [|exact S2]. cbn. intros. lia.
  - intros S. inversion S as [|? ? S1 S2]; subst. inversion S2; subst. split; [lia|exact S1].
Qed.
Lemma as_pieces l xs : as_all (@as_piece Arr Shp Obs Bulk) l = Some xs <-> l = map a_piece xs.
Proof. apply (all_of as_piece a_piece c_piece). intros []. reflexivity. Qed.
Lemma elements_denote {A} (m : mt) (w : A -> any) P l xs : denotes m w P -> Forall regular l -> (Forall2 (accepts (@ANode Arr Shp Obs Bulk) (Some m)) l (map w xs) <-> Forall2 P l xs).
Proof.
  intros D Rl. revert xs. induction Rl as [|n l Rn Rl IH]; intros [|x xs]; cbn [map]; split; intros H; inversion H; subst; constructor; try (apply IH; assumption); apply (D n x Rn); assumption.
Qed.
Lemma piecewise_iff n d : regular n -> (mt_match any (piecewise_class of_float) n = Match (some_dyn d) <->
  exists ns l, n = NClass (tx "piecewise") ns [] /\ d = DPiecewise l /\ Forall2 (piece of_float) ns l /\ (2 <= List.length l)%nat /\ nth_error (map fst l) 0 = Some 0 /\ StronglySorted Z.lt (map fst l)).
Proof.
  intros R. unfold piecewise_class, class_m. rewrite class_node. cbn [cm_name]. split.
  - intros (pos & kw & c & -> & H & M). inversion R as [| | | | | | |? ? ? Rp Nk Rk]; subst. apply class_iff in H; [|constructor|exact Nk]. destruct H as (C & L & _ & A1 & A2 & F). cbn [cm_args cm_kwargs cm_params cm_filters List.length skipn] in *.
    destruct A1 as [A1 A3]. cbn [am_filters am_element] in *. symmetry in M. apply made_some in M; [|discriminate]. apply obind_some in M. destruct M as (l & E & M). injection M as <-. apply all_cons in F. destruct F as [F _]. rewrite truth_true in F. rewrite E in F. cbn [obind] in F. injection F as F. apply as_pieces in E.
    apply all_cons in A3. destruct A3 as [A3 _]. apply Nat.leb_le in A3. rewrite E in *. rewrite map_length in A3. apply (elements_denote _ _ _ _ _ piece_denotes Rp) in A1.
    exists pos, l. assert (kw = []). { destruct kw as [|e kw]; [reflexivity|]. exfalso. apply C. apply (E_unknown _ _ _ (fst e)); [reflexivity|left; reflexivity|intros []]. } subst kw. repeat split; auto.
    + destruct l as [|p l]; [discriminate|]. cbn [pieces_filter] in F. apply andb_prop in F. destruct F as [F _]. cbn. f_equal. lia.
    + destruct l as [|p l]; [discriminate|]. cbn [pieces_filter] in F. apply andb_prop in F. apply ascending_iff. tauto.
  - intros (ns & l & -> & -> & P & L & Z0 & S). inversion R as [| | | | | | |? ? ? Rp Nk Rk]; subst. exists ns, [], (ClassData any [] (map a_piece l) []). split; [reflexivity|]. assert (Ep : as_all (@as_piece Arr Shp Obs Bulk) (map a_piece l) = Some l) by (apply as_pieces; reflexivity). split; [|cbn [cd_args]; rewrite Ep; reflexivity].
    apply class_iff; [constructor|constructor|]. unfold class_matched. cbn [cm_args cm_kwargs cm_params cm_filters cd_standard cd_args cd_kwargs List.length skipn]. split; [|split; [reflexivity|split; [intros [|i] p H; discriminate|split; [split; [cbn [am_element]; apply (elements_denote _ _ _ _ _ piece_denotes Rp); exact P|apply all_cons; split; [apply Nat.leb_le; rewrite map_length; exact L|constructor]]|split; [reflexivity|apply all_cons; split; [|constructor]]]]]].
    + intros H. destruct H as [H _|i p H _ _ _|i p n' H _ _|k _ H _]; [discriminate|destruct i; discriminate|destruct i; discriminate|contradiction].
    + cbn [cd_args]. rewrite Ep. cbn [obind truth]. destruct l as [|p l]; [cbn in L; lia|]. cbn [pieces_filter]. cbn in Z0. injection Z0 as Z0. rewrite (proj2 (ascending_iff (p :: l)) S), Z0. reflexivity.
Qed.
Lemma dynamic_denotes : denotes (dynamic_m of_float) (@ADyn Arr Shp Obs Bulk) (or_none (parameter of_float)).
Proof.
  intros n o R. unfold dynamic_m. change (or_alternative any (alone (match_none any (ADyn None))) (dynamic of_float)) with
    (alternative_of [match_none any (@ADyn Arr Shp Obs Bulk None); const_float of_float; const_class of_float; linear_class of_float; exp_class of_float; piecewise_class of_float]).
  rewrite alt_iff by (reflexivity || typeds). alts.
  assert (K : forall d, mt_match any (const_float of_float) n = Match (some_dyn d) \/ mt_match any (const_class of_float) n = Match (some_dyn d) \/ mt_match any (linear_class of_float) n = Match (some_dyn d) \/ mt_match any (exp_class of_float) n = Match (some_dyn d) <-> simple of_float n d).
  { intros d. rewrite <- (specific_denotes n d R). change (specific of_float) with (alternative_of [const_float (Arr := Arr) (Shp := Shp) (Obs := Obs) (Bulk := Bulk) of_float; const_class of_float; linear_class of_float; exp_class of_float]).
    rewrite alt_iff by (reflexivity || typeds). alts. tauto. }
  destruct o as [d|]; cbn [or_none].
  - unfold parameter. specialize (K d). change (ADyn (Some d)) with (some_dyn d). rewrite (piecewise_iff n d R). rewrite none_node. split; [intros [[_ X]|X]; [discriminate|tauto]|tauto].
  - split; [|intros ->; left; reflexivity]. intros [X|X]; [apply none_node in X; tauto|]. exfalso. destruct X as [X|[X|[X|[X|[X|[]]]]]].
    + unfold const_float, InputModel.real_m in X. apply float_node in X. destruct X as (x & _ & _ & X). discriminate.
    + unfold const_class, class_m in X. apply class_node in X. destruct X as (pos & kw & c & _ & _ & X). destruct (as_real _); discriminate.
    + unfold linear_class, class_m in X. apply class_node in X. destruct X as (pos & kw & c & _ & _ & X). destruct (as_real _); [|discriminate]. cbn [obind] in X. destruct (as_real _); discriminate.
    + unfold exp_class, class_m in X. apply class_node in X. destruct X as (pos & kw & c & _ & _ & X). destruct (as_real _); [|discriminate]. cbn [obind] in X. destruct (as_real _); discriminate.
    + unfold piecewise_class, class_m in X. apply class_node in X. destruct X as (pos & kw & c & _ & _ & X). destruct (as_all _ _); discriminate.
Qed.

(** *** Moves *)
Lemma limit_denotes : denotes (match_alternative any (max_step of_float)) (@AReal Arr Shp Obs Bulk) (limit of_float).
Proof.
  intros n x R. change (max_step of_float) with (alternative_of [real_m [realPositive] AReal; match_none any (@AReal Arr Shp Obs Bulk 0)]). rewrite alt_iff by (reflexivity || typeds). alts. rewrite (positive_real n x R), none_node. unfold limit. split.
  - intros [H|[[-> H]|[]]]; [right; exact H|]. injection H as ->. left. auto.
  - intros [[-> ->]|H]; [right; left; auto|left; exact H].
Qed.
Lemma angle_denotes : denotes (match_alternative any (rot_step of_float)) (@AOptReal Arr Shp Obs Bulk) (angle of_float).
Proof.
  intros n o R. change (rot_step of_float) with (alternative_of [real_m [realPositive] (fun x => @AOptReal Arr Shp Obs Bulk (Some x)); match_string any [text_eqb (tx "auto")] (fun _ => AOptReal None)]). rewrite alt_iff by (reflexivity || typeds). alts.
  rewrite (positive_denotes Some (@AOptReal Arr Shp Obs Bulk) ltac:(congruence) ltac:(congruence)), string_node. unfold angle. split.
  - intros [(y & H & ->)|[(s & -> & F & E)|[]]]; [exact H|]. injection E as ->. apply all_cons in F. destruct F as [F _]. apply text_eqb_eq in F. rewrite F. reflexivity.
  - destruct o as [x|]; [intros H; left; eauto|]. intros ->. right. left. exists (tx "auto"). split; [reflexivity|]. split; [apply all_cons; split; [apply text_eqb_refl|constructor]|reflexivity].
Qed.
Lemma limit_iff s m : @step_limit Arr Shp Obs Bulk (AReal s) (AReal m) = true <-> within s m.
Proof. unfold step_limit, within. cbn [as_real obind truth]. rewrite orb_true_iff, Reqb_true, Rleb_true. tauto. Qed.
Ltac den ::= first [exact real_denotes | exact positive_real | exact count_denotes | exact wrapped_denotes | exact start_denotes | exact bool_denotes | exact filename_denotes | exact limit_denotes | exact angle_denotes].
Definition rototranslation_sig : signature := [("trans_step", true); ("rot_step", false); ("max_trans_step", false)]%string.
Ltac sigs B ::= unfold rototranslation_sig, anisotropic_sig, integration_sig, overlap_sig, rampack_sig in B.
Lemma rototranslation_iff n x : regular n -> (mt_match any (rototranslation_class of_float) n = Match (AMove x) <-> exists a t r m, object n "rototranslation" rototranslation_sig a /\
  arg a "trans_step" positive_num t /\ arg_or a "rot_step" (angle of_float) None r /\ arg_or a "max_trans_step" (limit of_float) 0%R m /\ within t m /\ x = Rototranslation t r m).
Proof.
  intros R. unfold rototranslation_class. cls rototranslation_sig R. rename x into y. split.
  - fwd R. injection M as <-. apply all_cons in F. destruct F as [F _]. revert F. gets. intros F. apply limit_iff in F. exists a, x, x0, x1. split; [exact O|]. split; [req Ra|]. split; [opt Ra|]. split; [opt Ra|]. auto.
  - intros (a & t & r & m & O & A1 & A2 & A3 & W & ->). pose proof (object_regular _ _ _ _ R O) as Ra. exists a, [AReal t; AOptReal r; AReal m]. split; [exact O|]. split; [cbn [binds fst rototranslation_sig]; split; [req Ra|split; [opt Ra|split; [opt Ra|exact Logic.I]]]|]. split; [apply all_cons; split; [gets; apply limit_iff; exact W|constructor]|]. gets. reflexivity.
Qed.
Lemma translation_iff n x : regular n -> (mt_match any (translation_class of_float) n = Match (AMove x) <-> exists a s m, object n "translation" [("step", true); ("max_step", false)]%string a /\
  arg a "step" positive_num s /\ arg_or a "max_step" (limit of_float) 0%R m /\ within s m /\ x = Translation s m).
Proof.
  intros R. unfold translation_class. cls [("step", true); ("max_step", false)]%string R. rename x into y. split.
  - fwd R. injection M as <-. apply all_cons in F. destruct F as [F _]. revert F. gets. intros F. apply limit_iff in F. exists a, x, x0. split; [exact O|]. split; [req Ra|]. split; [opt Ra|]. auto.
  - intros (a & t & m & O & A1 & A2 & W & ->). pose proof (object_regular _ _ _ _ R O) as Ra. exists a, [AReal t; AReal m]. split; [exact O|]. split; [cbn [binds fst]; split; [req Ra|split; [opt Ra|exact Logic.I]]|]. split; [apply all_cons; split; [gets; apply limit_iff; exact W|constructor]|]. gets. reflexivity.
Qed.
Lemma rotation_iff n x : regular n -> (mt_match any (rotation_class of_float) n = Match (AMove x) <-> exists a s, object n "rotation" [("step", true)]%string a /\ arg a "step" positive_num s /\ x = Rotation s).
Proof.
  intros R. unfold rotation_class. cls [("step", true)]%string R. rename x into y. split.
  - fwd R. injection M as <-. exists a, x. split; [exact O|]. split; [req Ra|reflexivity].
  - intros (a & s & O & A1 & ->). pose proof (object_regular _ _ _ _ R O) as Ra. exists a, [AReal s]. split; [exact O|]. split; [cbn [binds fst]; split; [req Ra|exact Logic.I]|]. split; [constructor|]. gets. reflexivity.
Qed.
Lemma flip_iff n x : regular n -> (mt_match any flip_class n = Match (AMove x) <-> exists a e, object n "flip" [("every", false)]%string a /\ arg_or a "every" count 10 e /\ x = Flip e).
Proof.
  intros R. unfold flip_class. cls [("every", false)]%string R. rename x into y. split.
  - fwd R. injection M as <-. exists a, x. split; [exact O|]. split; [opt Ra|reflexivity].
  - intros (a & s & O & A1 & ->). pose proof (object_regular _ _ _ _ R O) as Ra. exists a, [ASize s]. split; [exact O|]. split; [cbn [binds fst]; split; [opt Ra|exact Logic.I]|]. split; [constructor|]. gets. reflexivity.
Qed.
Lemma move_denotes : denotes (match_alternative any (move_a of_float)) (@AMove Arr Shp Obs Bulk) (moves of_float).
Proof.
  intros n x R. change (move_a of_float) with (alternative_of [rototranslation_class (Arr := Arr) (Shp := Shp) (Obs := Obs) (Bulk := Bulk) of_float; translation_class of_float; rotation_class of_float; flip_class]).
  rewrite alt_iff by (reflexivity || typeds). alts. rewrite (rototranslation_iff n x R), (translation_iff n x R), (rotation_iff n x R), (flip_iff n x R). split.
  - intros [(a & t & r & m & O & A1 & A2 & A3 & W & ->)|[(a & s & m & O & A1 & A2 & W & ->)|[(a & s & O & A1 & ->)|[(a & e & O & A1 & ->)|[]]]]].
    + eapply M_rototranslation; eauto.
    + eapply M_translation; eauto.
    + eapply M_rotation; eauto.
    + eapply M_flip; eauto.
  - intros [n' a t r m O A1 A2 A3 W|n' a s m O A1 A2 W|n' a s O A1|n' a e O A1].
    + left. exists a, t, r, m. repeat split; assumption.
    + right. left. exists a, s, m. repeat split; assumption.
    + right. right. left. eauto.
    + right. right. right. left. eauto.
Qed.

(** *** Box moves *)
Lemma direction_denotes : denotes direction_m (@ADirection Arr Shp Obs Bulk) directions.
Proof.
  intros n d R. unfold direction_m. rewrite string_node. unfold directions. split.
  - intros (s & -> & _ & E). symmetry in E. apply made_some in E; [|discriminate]. apply obind_some in E. destruct E as (d' & E & X). injection X as ->. eauto.
  - intros (s & -> & E). exists s. split; [reflexivity|]. split; [constructor|]. rewrite E. reflexivity.
Qed.
Ltac den ::= first [exact real_denotes | exact positive_real | exact count_denotes | exact wrapped_denotes | exact start_denotes | exact bool_denotes | exact filename_denotes | exact direction_denotes].
Definition some_scaler (s : scaler) : any := AScaler (Some s).
Lemma delta_v_iff n x : regular n -> (mt_match any (delta_v_class of_float) n = Match (some_scaler x) <-> exists a s, object n "delta_v" [("step", true)]%string a /\ arg a "step" positive_num s /\ x = DeltaV s).
Proof.
  intros R. unfold delta_v_class. cls [("step", true)]%string R. rename x into y. split.
  - fwd R. injection M as <-. exists a, x. split; [exact O|]. split; [req Ra|reflexivity].
  - intros (a & s & O & A1 & ->). pose proof (object_regular _ _ _ _ R O) as Ra. exists a, [AReal s]. split; [exact O|]. split; [cbn [binds fst]; split; [req Ra|exact Logic.I]|]. split; [constructor|]. gets. reflexivity.
Qed.
Lemma anisotropic_iff name make n x : regular n -> (mt_match any (anisotropic_class of_float name make) n = Match (some_scaler x) <-> exists a d s t, object n name anisotropic_sig a /\ arg a "spec" directions d /\ d <> [] /\ arg a "step" positive_num s /\ arg_or a "scale_together" yes_no true t /\ x = make d s (negb t)).
Proof.
  intros R. unfold anisotropic_class. cls anisotropic_sig R. rename x into y. split.
  - fwd R. destruct (nonEmpty x) eqn:N; [|discriminate]. injection M as <-. exists a, x, x0, x1. split; [exact O|]. split; [req Ra|]. split; [destruct x; [discriminate N|discriminate]|]. split; [req Ra|]. split; [opt Ra|reflexivity].
  - intros (a & d & s & t & O & A1 & N & A2 & A3 & ->). pose proof (object_regular _ _ _ _ R O) as Ra. exists a, [ADirection d; AReal s; ABool t]. split; [exact O|]. split; [cbn [binds fst anisotropic_sig]; split; [req Ra|split; [req Ra|split; [opt Ra|exact Logic.I]]]|]. split; [constructor|]. gets. cbn [as_direction as_real as_bool obind]. destruct d; [contradiction N; reflexivity|reflexivity].
Qed.
Lemma triclinic_iff n x : regular n -> (mt_match any (delta_triclinic_class of_float) n = Match (some_scaler x) <-> exists a s t, object n "delta_triclinic" [("step", true); ("scale_together", false)]%string a /\ arg a "step" positive_num s /\ arg_or a "scale_together" yes_no true t /\ x = DeltaTriclinic s t).
Proof.
  intros R. unfold delta_triclinic_class. cls [("step", true); ("scale_together", false)]%string R. rename x into y. split.
  - fwd R. injection M as <-. exists a, x, x0. split; [exact O|]. split; [req Ra|]. split; [opt Ra|reflexivity].
  - intros (a & s & t & O & A1 & A2 & ->). pose proof (object_regular _ _ _ _ R O) as Ra. exists a, [AReal s; ABool t]. split; [exact O|]. split; [cbn [binds fst]; split; [req Ra|split; [opt Ra|exact Logic.I]]|]. split; [constructor|]. gets. reflexivity.
Qed.
(** A class without arguments. *)
Lemma plain_iff name (v : any) n : v <> ABad -> regular n -> (mt_match any (class_m name [] None None [] (fun _ => Some v)) n = Match v <-> n = NClass (tx name) [] []).
Proof.
  intros Nb R. cls (@nil (string * bool)) R. split.
  - intros (a & vs & (pos & kw & -> & C & _) & _). destruct C as [L K _ _]. cbn [List.length names map] in *. destruct pos; [|cbn in L; lia]. destruct kw as [|e kw]; [reflexivity|]. contradiction (K eq_refl (fst e) (or_introl eq_refl)).
  - intros ->. exists (fun _ => None), []. split; [|split; [exact Logic.I|split; [constructor|reflexivity]]]. exists [], []. split; [reflexivity|]. split; [|reflexivity]. constructor; [reflexivity|intros _ k []|cbn; intros i k L; lia|intros k []].
Qed.
Definition a_status (s : @scaler_status scaler) : any := match s with ScalerUnset => AScaler None | ScalerDisabled => ADisabled | ScalerSet x => some_scaler x end.
Lemma status_denotes : denotes (box_scaler_m of_float) a_status (status of_float).
Proof.
  intros n st R. unfold box_scaler_m. change (or_ (or_ (scaler_a of_float) (class_m "disabled" [] None None [] (fun _ => Some ADisabled))) (match_none any (AScaler None))) with
    (alternative_of [delta_v_class of_float; anisotropic_class of_float "linear" Linear; anisotropic_class of_float "log" Log; delta_triclinic_class of_float; class_m "disabled" [] None None [] (fun _ => Some (@ADisabled Arr Shp Obs Bulk)); match_none any (AScaler None)]).
  rewrite alt_iff by (reflexivity || typeds). alts.
  destruct st as [| |x]; cbn [a_status status].
  - split; [|intros ->; do 5 right; left; reflexivity]. intros [X|[X|[X|[X|[X|[X|[]]]]]]]; [exfalso..|apply none_node in X; tauto].
    + unfold delta_v_class, class_m in X. apply class_node in X. destruct X as (pos & kw & c & _ & _ & X). destruct (as_real _); discriminate.
    + unfold anisotropic_class, class_m in X. apply class_node in X. destruct X as (pos & kw & c & _ & _ & X). destruct (as_direction _); [|discriminate]. cbn [obind] in X. destruct (as_real _); [|discriminate]. cbn [obind] in X. destruct (as_bool _); [|discriminate]. cbn [obind] in X. destruct (nonEmpty _); discriminate.
    + unfold anisotropic_class, class_m in X. apply class_node in X. destruct X as (pos & kw & c & _ & _ & X). destruct (as_direction _); [|discriminate]. cbn [obind] in X. destruct (as_real _); [|discriminate]. cbn [obind] in X. destruct (as_bool _); [|discriminate]. cbn [obind] in X. destruct (nonEmpty _); discriminate.
    + unfold delta_triclinic_class, class_m in X. apply class_node in X. destruct X as (pos & kw & c & _ & _ & X). destruct (as_real _); [|discriminate]. cbn [obind] in X. destruct (as_bool _); discriminate.
    + unfold class_m in X. apply class_node in X. destruct X as (pos & kw & c & _ & _ & X). discriminate.
  - rewrite <- (plain_iff "disabled" (@ADisabled Arr Shp Obs Bulk) n ltac:(discriminate) R). split; [|tauto]. intros [X|[X|[X|[X|[X|[X|[]]]]]]]; [exfalso..|exact X|apply none_node in X; destruct X; discriminate].
    + unfold delta_v_class, class_m in X. apply class_node in X. destruct X as (pos & kw & c & _ & _ & X). destruct (as_real _); discriminate.
    + unfold anisotropic_class, class_m in X. apply class_node in X. destruct X as (pos & kw & c & _ & _ & X). destruct (as_direction _); [|discriminate]. cbn [obind] in X. destruct (as_real _); [|discriminate]. cbn [obind] in X. destruct (as_bool _); [|discriminate]. cbn [obind] in X. destruct (nonEmpty _); discriminate.
    + unfold anisotropic_class, class_m in X. apply class_node in X. destruct X as (pos & kw & c & _ & _ & X). destruct (as_direction _); [|discriminate]. cbn [obind] in X. destruct (as_real _); [|discriminate]. cbn [obind] in X. destruct (as_bool _); [|discriminate]. cbn [obind] in X. destruct (nonEmpty _); discriminate.
    + unfold delta_triclinic_class, class_m in X. apply class_node in X. destruct X as (pos & kw & c & _ & _ & X). destruct (as_real _); [|discriminate]. cbn [obind] in X. destruct (as_bool _); discriminate.
  - rewrite (delta_v_iff n x R), (anisotropic_iff "linear" Linear n x R), (anisotropic_iff "log" Log n x R), (triclinic_iff n x R). split.
    + intros [(a & s & O & A & ->)|[(a & d & s & t & O & A1 & N & A2 & A3 & ->)|[(a & d & s & t & O & A1 & N & A2 & A3 & ->)|[(a & s & t & O & A1 & A2 & ->)|[X|[X|[]]]]]]].
      * eapply B_delta_v; eauto.
      * eapply B_linear; eauto.
      * eapply B_log; eauto.
      * eapply B_triclinic; eauto.
      * unfold class_m in X. apply class_node in X. destruct X as (pos & kw & c & _ & _ & X). discriminate.
      * apply none_node in X. destruct X. discriminate.
    + intros [n' a s O A|n' a d s t O A1 N A2 A3|n' a d s t O A1 N A2 A3|n' a s t O A1 A2].
      * left. eauto.
      * right. left. exists a, d, s, t. repeat split; assumption.
      * right. right. left. exists a, d, s, t. repeat split; assumption.
      * right. right. right. left. exists a, s, t. repeat split; assumption.
Qed.

(** *** Files *)
Lemma file_class_iff {A} name (make : text -> A) (w : A -> any) n x : (forall y z, w y = w z -> y = z) -> (forall y, w y <> ABad) -> regular n ->
  (mt_match any (class_m name [required "filename" filename] None None [] (fun d => f <- as_text (get d "filename") ;; Some (w (make f)))) n = Match (w x) <-> exists a f, object n name file_sig a /\ arg a "filename" some_text f /\ x = make f).
Proof.
  intros Wi Nb R. cls file_sig R. rename x into y. split.
  - intros (a & vs & O & B & F & M); pose proof (object_regular _ _ _ _ R O) as Ra. cbn [binds fst file_sig] in B. values vs B. destruct B as [B _]. symmetry in M; apply made_some in M; [|apply Nb]; revert M; gets; intros M; unbind M; uncast. injection M as M. apply Wi in M. exists a, x. split; [exact O|]. split; [req Ra|auto].
  - intros (a & f & O & A0 & ->). pose proof (object_regular _ _ _ _ R O) as Ra. exists a, [AText f]. split; [exact O|]. split; [cbn [binds fst file_sig]; split; [req Ra|exact Logic.I]|]. split; [constructor|]. gets. reflexivity.
Qed.
Lemma style_denotes : denotes (match_alternative any style_a) (@AStyle Arr Shp Obs Bulk) style.
Proof.
  intros n b R. change (@style_a Arr Shp Obs Bulk) with (alternative_of [class_m "standard" [] None None [] (fun _ => Some (@AStyle Arr Shp Obs Bulk false)); class_m "affine_transform" [] None None [] (fun _ => Some (AStyle true))]).
  rewrite alt_iff by (reflexivity || typeds). alts. unfold style. destruct b.
  - rewrite <- (plain_iff "affine_transform" (@AStyle Arr Shp Obs Bulk true) n ltac:(discriminate) R). split; [intros [X|[X|[]]]; [|exact X]|tauto]. unfold class_m in X. apply class_node in X. destruct X as (pos & kw & c & _ & _ & X). discriminate.
  - rewrite <- (plain_iff "standard" (@AStyle Arr Shp Obs Bulk false) n ltac:(discriminate) R). split; [intros [X|[X|[]]]; [exact X|]|tauto]. unfold class_m in X. apply class_node in X. destruct X as (pos & kw & c & _ & _ & X). discriminate.
Qed.
Lemma entries_iff (l : list (text * any)) xs : as_entries l = Some xs <-> l = map (fun e => (fst e, AText (snd e))) xs.
Proof.
  revert xs. induction l as [|[k v] l IH]; intros xs; cbn [as_entries].
  - split; [intros H; injection H as <-; reflexivity|]. destruct xs; [reflexivity|discriminate].
  - rewrite obind_some. unfold as_entry. split.
    + intros (e & He & H). apply obind_some in He. destruct He as (t & Ht & He). cbn [fst snd] in *. apply c_text in Ht. injection He as <-. apply obind_some in H. destruct H as (r & Hr & H). injection H as <-. apply IH in Hr. subst. reflexivity.
    + intros H. destruct xs as [|[k' t] xs]; [discriminate|]. cbn [map fst snd] in H. injection H as -> -> ->. exists (k', t). split; [reflexivity|]. apply obind_some. exists xs. split; [apply IH; reflexivity|reflexivity].
Qed.
Ltac den ::= first [exact filename_denotes | exact style_denotes].
Lemma wolfram_iff n x : regular n -> (mt_match any wolfram_class n = Match (AWriter x) <-> exists pos kw f s p a, n = NClass (tx "wolfram") pos kw /\ x = Writer f (Wolfram s p) /\
    call true wolfram_sig pos kw /\ (forall k, a k = given (names wolfram_sig) pos kw (tx k)) /\ arg a "filename" some_text f /\ arg_or a "style" style false s /\
    StronglySorted (fun x y => text_ltb (fst x) (fst y) = true) p /\
    (forall k n, In (k, n) kw -> ~ In k (names wolfram_sig) -> exists t, n = NString t /\ In (k, t) p) /\
    (forall k t, In (k, t) p -> ~ In k (names wolfram_sig) /\ In (k, NString t) kw)).
Proof.
  intros R. unfold wolfram_class. rewrite class_call with (sg := wolfram_sig); [|reflexivity|reflexivity|exact R].
  assert (Sx : forall k, negb (existsb (text_eqb k) (names wolfram_sig)) = true <-> ~ In k (names wolfram_sig)).
  { intros k. rewrite negb_true_iff. split; [intros H I|intros H; destruct (existsb _ _) eqn:E; [|reflexivity]; exfalso; apply H; apply existsb_exists in E; destruct E as (y & I & E); apply text_eqb_eq in E; subst; exact I].
    assert (X : existsb (text_eqb k) (names wolfram_sig) = true) by (apply existsb_exists; exists k; split; [exact I|apply text_eqb_refl]). congruence. }
  assert (Kv : forall k n' v, key_value (@ANode Arr Shp Obs Bulk) (DictMatcher any [] (Some (match_string any [] AText)) []) k n' v <-> exists t, n' = NString t /\ v = AText t).
  { intros k n' v. unfold key_value. cbn [dm_keys dm_default accepts]. split.
    - intros [(u & km & b & E & _)|[_ H]]; [destruct u; discriminate|]. apply string_node in H. destruct H as (t & -> & _ & ->). eauto.
    - intros (t & -> & ->). right. split; [constructor|]. apply string_node. exists t. repeat split; constructor. }
  rename x into y. split.
  - intros (pos & kw & a & vs & kwd & -> & C & G & B & K & F & M). assert (Ra : regular_args a). { intros k m E. inversion R; subst. rewrite G in E. eapply given_regular; eauto. }
    cbn [binds fst wolfram_sig] in B. values vs B. destruct B as (B1 & B2 & _). symmetry in M. apply made_some in M; [|discriminate]. revert M. gets. intros M. unbind M. uncast. injection M as <-. cbn [cd_kwargs] in *. apply entries_iff in E1. destruct K as (S & K1 & K2 & _).
    exists pos, kw, x, x0, x1, a. split; [reflexivity|]. split; [reflexivity|]. split; [exact C|]. split; [exact G|]. split; [req Ra|]. split; [opt Ra|]. subst kwd. split; [|split].
    + clear -S. induction x1 as [|e l IH]; [constructor|]. cbn [map] in S. inversion S as [|? ? S1 S2]; subst. constructor; [exact (IH S1)|]. apply Forall_map in S2. exact S2.
    + intros k n' I N. destruct (K1 k n') as (v & Iv & Hv). { apply filter_In. split; [exact I|]. apply Sx. exact N. } apply Kv in Hv. destruct Hv as (t & -> & ->). exists t. split; [reflexivity|]. apply in_map_iff in Iv. destruct Iv as ([k' t'] & E & Iv). cbn [fst snd] in E. injection E as -> ->. exact Iv.
    + intros k t I. destruct (K2 k (AText t)) as (n' & In' & Hv). { apply in_map_iff. exists (k, t). auto. } apply Kv in Hv. destruct Hv as (t' & -> & E). injection E as ->. apply filter_In in In'. destruct In' as [In' X]. split; [apply Sx; exact X|exact In'].
  - intros (pos & kw & f & s & p & a & -> & -> & C & G & A1 & A2 & S & K1 & K2). assert (Ra : regular_args a). { intros k m E. inversion R; subst. rewrite G in E. eapply given_regular; eauto. }
    exists pos, kw, a, [AText f; AStyle s], (map (fun e => (fst e, AText (snd e))) p). split; [reflexivity|]. split; [exact C|]. split; [exact G|]. split; [cbn [binds fst wolfram_sig]; split; [req Ra|split; [opt Ra|exact Logic.I]]|]. split; [|split; [constructor|]].
    + split; [|split; [|split; [|constructor]]].
      * clear -S. induction S as [|e l S IH F]; [constructor|]. cbn [map]. constructor; [exact IH|]. apply Forall_map. exact F.
      * intros k n' I. apply filter_In in I. destruct I as [I X]. apply Sx in X. destruct (K1 k n' I X) as (t & -> & It). exists (AText t). split; [apply in_map_iff; exists (k, t); auto|]. apply Kv. eauto.
      * intros k v I. apply in_map_iff in I. destruct I as ([k' t] & E & I). cbn [fst snd] in E. injection E as <- <-. destruct (K2 k' t I) as [N I']. exists (NString t). split; [apply filter_In; split; [exact I'|apply Sx; exact N]|]. apply Kv. eauto.
    + gets. cbn [as_text as_style obind cd_kwargs]. rewrite (proj2 (entries_iff _ p) eq_refl). reflexivity.
Qed.
Lemma writer_denotes : denotes (match_alternative any writer_a) (@AWriter Arr Shp Obs Bulk) writes.
Proof.
  intros n x R. change (@writer_a Arr Shp Obs Bulk) with (alternative_of [@ramsnap_class Arr Shp Obs Bulk; wolfram_class; xyz_class]). rewrite alt_iff by (reflexivity || typeds). alts. unfold ramsnap_class, xyz_class.
  rewrite (file_class_iff "ramsnap" (fun f => Writer f Ramsnap) (@AWriter Arr Shp Obs Bulk) n x ltac:(congruence) ltac:(discriminate) R), (file_class_iff "xyz" (fun f => Writer f Xyz) (@AWriter Arr Shp Obs Bulk) n x ltac:(congruence) ltac:(discriminate) R), (wolfram_iff n x R). split.
  - intros [(a & f & O & A & ->)|[(pos & kw & f & s & p & a & -> & -> & H)|[(a & f & O & A & ->)|[]]]].
    + eapply W_ramsnap; eauto.
    + destruct H as (C & G & A1 & A2 & S & K1 & K2). eapply W_wolfram; eauto.
    + eapply W_xyz; eauto.
  - intros [n' a f O A|n' a f O A|pos kw f s p a C G A1 A2 S K1 K2].
    + left. eauto.
    + right. right. left. eauto.
    + right. left. exists pos, kw, f, s, p, a. repeat (split; [assumption || reflexivity|]). assumption.
Qed.
Lemma recorder_denotes : denotes (match_alternative any recorder_a) (@ARecorder Arr Shp Obs Bulk) records.
Proof.
  intros n x R. change (@recorder_a Arr Shp Obs Bulk) with (alternative_of [@ramtrj_recorder_class Arr Shp Obs Bulk; xyz_recorder_class]). rewrite alt_iff by (reflexivity || typeds). alts. unfold ramtrj_recorder_class, xyz_recorder_class.
  rewrite (file_class_iff "ramtrj" (fun f => Recorder f true) (@ARecorder Arr Shp Obs Bulk) n x ltac:(congruence) ltac:(discriminate) R), (file_class_iff "xyz" (fun f => Recorder f false) (@ARecorder Arr Shp Obs Bulk) n x ltac:(congruence) ltac:(discriminate) R). split.
  - intros [(a & f & O & A & ->)|[(a & f & O & A & ->)|[]]]; [eapply R_ramtrj; eauto|eapply R_xyz; eauto].
  - intros [n' a f O A|n' a f O A]; [left; eauto|right; left; eauto].
Qed.
End Parts.
