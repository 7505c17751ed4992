(** C37 and C38: matchers of PYON nodes. *)
From Coq Require Import ZArith List Bool String.
From Verif Require Import TextModel ConfigExamples PyonModel MatchModel MatchSpec MatchProofs MatchExamples.
Import ListNotations.
Open Scope Z_scope.

(** A dataclass matches exactly when its arguments can be bound, and gives exactly the bound values. *)
Theorem C37_bound {V} (of_node : node -> V) c pos kw d : NoDup (map (p_name V) (cm_params V c)) -> NoDup (map fst kw) ->
  match_class_data V of_node c pos kw = Match d <-> class_matched of_node c pos kw d.
Proof. exact (class_iff of_node c pos kw d). Qed.
Print Assumptions C37_bound.
Example C37_bound_case : NoDup (map (p_name node) (cm_params node f)) /\ NoDup (map fst [(codes "z", NInt 3); (codes "k", NString (codes "t"))]) /\
  class_matched id f [NInt 1; NNone; NInt 5; NInt 6] [(codes "z", NInt 3); (codes "k", NString (codes "t"))] f_data /\ match_class_data node id f [] [(codes "a", NInt 2)] = Match (ClassData node [(codes "a", NInt 2); (codes "b", NInt 7)] [] []).
Proof. exact (conj f_names (conj f_keys (conj f_matched f_default))). Qed.

(** Only instances of the class match, and the user's function is given the bound values. *)
Theorem C37_class {V} (of_node : node -> V) c mapping n v : mt_match V (match_class V of_node c mapping) n = Match v <-> exists pos kw d, n = NClass (cm_name V c) pos kw /\ match_class_data V of_node c pos kw = Match d /\ v = mapping d.
Proof. exact (class_node of_node c mapping n v). Qed.
Print Assumptions C37_class.
Example C37_class_case : mt_match node (match_class node id f out) f_node = Match (NArray [NInt 1; NNone]).
Proof. vm_compute. reflexivity. Qed.

(** Each of the errors in a call is reported. *)
Theorem C37_errors {V} (of_node : node -> V) c pos kw : NoDup (map fst kw) -> call_error c pos kw -> match_class_data V of_node c pos kw = NoMatch.
Proof. exact (call_refused of_node c pos kw). Qed.
Print Assumptions C37_errors.
Example C37_errors_case : call_error g [NNone; NNone; NNone] [] /\ call_error g [] [(codes "b", NNone)] /\ call_error g [NNone] [(codes "a", NNone)] /\ call_error g [NNone] [(codes "c", NNone)].
Proof. exact (conj g_excessive (conj g_missing (conj g_twice g_unknown))). Qed.

(** Matching throws no exception by itself: the arguments are there when they are taken. *)
Theorem C37_quiet {V} (of_node : node -> V) c pos kw : NoDup (map (p_name V) (cm_params V c)) -> NoDup (map fst kw) -> quiet_class c -> match_class_data V of_node c pos kw <> Throws.
Proof. exact (class_quiet of_node c pos kw). Qed.
Print Assumptions C37_quiet.
Example C37_quiet_case : quiet_class f.
Proof. exact f_quiet. Qed.

(** Parameters can be declared exactly when none without a default value follows one with a default value. *)
Theorem C37_declared {V} (ps : list (param V)) : arguments V ps = true <-> forall i j p q, (i < j)%nat -> nth_error ps i = Some p -> nth_error ps j = Some q -> p_default V p <> None -> p_default V q <> None.
Proof. exact (arguments_iff ps). Qed.
Print Assumptions C37_declared.
Example C37_declared_case : arguments node (cm_params node f) = true /\ arguments node (rev (cm_params node f)) = false.
Proof. split; reflexivity. Qed.

(** Repeated names are accepted in the declaration, but then nothing is ever matched, and arguments which fit cause an exception. *)
Theorem C37_repeated_names_refuted :
  (forall V (of_node : node -> V) c pos kw d, NoDup (map fst kw) -> ~ NoDup (map (p_name V) (cm_params V c)) -> match_class_data V of_node c pos kw <> Match d) /\
  arguments node (cm_params node h) = true /\ match_class_data node id h [NNone; NNone] [] = Throws.
Proof. exact (conj (@repeated_names) h_throws). Qed.
Print Assumptions C37_repeated_names_refuted.

(** An alternative matches exactly when a variant does, with the value of the first one; variants match only nodes of the types they declare. *)
Theorem C38_alternative {V} (ms : list (matcher V)) n : Forall typed ms ->
  (forall v, mt_match V (match_alternative V (alternative_of ms)) n = Match v <-> first_of ms n v) /\
  (mt_match V (match_alternative V (alternative_of ms)) n = NoMatch <-> Forall (fun m => mt_match V m n = NoMatch) ms).
Proof. exact (alternative_iff ms n). Qed.
Print Assumptions C38_alternative.
Example C38_alternative_case : Forall typed variants /\ mt_match node (match_alternative node (alternative_of variants)) (NInt 5) = Match (NInt 5) /\ mt_match node (match_alternative node (alternative_of variants)) (NInt (-5)) = Match (NInt 5) /\
  mt_match node (match_alternative node (alternative_of variants)) f_node = Match (NArray [NInt 1; NNone]) /\ mt_match node (match_alternative node (alternative_of variants)) NNone = NoMatch.
Proof. exact (conj variants_typed variants_match). Qed.
(** Two alternatives together are one with the variants of both. *)
Theorem C38_together {V} (ms ms' : list (matcher V)) : or_alternative V (alternative_of ms) (alternative_of ms') = alternative_of (ms ++ ms').
Proof. exact (or_both ms ms'). Qed.
Print Assumptions C38_together.

(** All matchers of single types are such variants. *)
Theorem C38_typed {V D} (of_node : node -> V) (oi : Z -> D) (of : list Z -> D) :
  (forall fs h, typed (match_int V fs h)) /\ (forall fs h, typed (match_float V D oi of fs h)) /\ (forall fs h, typed (match_bool V fs h)) /\ (forall h, typed (match_none V h)) /\ (forall fs h, typed (match_string V fs h)) /\
  (forall a h, typed (match_array V of_node a h)) /\ (forall a h, typed (match_dict V of_node a h)) /\ (forall c h, typed (match_class V of_node c h)).
Proof. exact (conj typed_int (conj (typed_float oi of) (conj typed_bool (conj typed_none (conj typed_string (conj (typed_array of_node) (conj (typed_dict of_node) (typed_class of_node)))))))). Qed.
Print Assumptions C38_typed.

(** The claim fails for other variants: a matcher which is not a dataclass matcher but matches dataclasses is never tried on them. *)
Theorem C38_nested_refuted : exists n v, mt_match node nested n = Match v /\ mt_match node (match_alternative node (or_matcher node (alternative_of [text]) nested)) n = NoMatch.
Proof. exact (ex_intro _ f_node (ex_intro _ _ nested_skipped)). Qed.
Print Assumptions C38_nested_refuted.

(** An array matches exactly when every element and every filter does. *)
Theorem C38_array {V} (of_node : node -> V) a mapping n v : mt_match V (match_array V of_node a mapping) n = Match v <-> exists l vs, n = NArray l /\ array_matched of_node a l vs /\ v = mapping vs.
Proof. split; [intros H; apply array_node in H; destruct H as (l & vs & E & H & E'); exists l, vs; split; [exact E|]; split; [apply array_iff; exact H|exact E']|intros (l & vs & E & H & E'); apply array_node; exists l, vs; split; [exact E|]; split; [apply array_iff; exact H|exact E']]. Qed.
Print Assumptions C38_array.
Example C38_array_case : array_matched id two [NInt 3; NInt 4] [NInt 3; NInt 4] /\ match_array_data node id two [NInt 3; NInt 0] = NoMatch /\ match_array_data node id two [NInt 3] = NoMatch.
Proof. exact two_matched. Qed.

(** A dictionary matches exactly when all its entries do; the first matcher accepting the key is used. *)
Theorem C38_dictionary {V} (of_node : node -> V) d l vs : NoDup (map fst l) -> match_dict_data V of_node d l = Match vs <-> dict_matched of_node d l vs.
Proof. exact (dict_iff of_node d l vs). Qed.
Print Assumptions C38_dictionary.
Theorem C38_dictionary_node {V} (of_node : node -> V) d mapping n v : mt_match V (match_dict V of_node d mapping) n = Match v <-> exists l vs, n = NDict l /\ match_dict_data V of_node d l = Match vs /\ v = mapping vs.
Proof. exact (dict_node of_node d mapping n v). Qed.
Print Assumptions C38_dictionary_node.
Example C38_dictionary_case : dict_matched id keyed [(codes "y", NString []); (codes "ab", NInt 3)] [(codes "ab", NInt 3); (codes "y", NString [])].
Proof. exact keyed_matched. Qed.

(** Scalars match exactly when they are of the type and all filters are true; integers are floats, too. *)
Theorem C38_scalars {V D} (oi : Z -> D) (of : list Z -> D) n v :
  (forall fs h, mt_match V (match_int V fs h) n = Match v <-> exists i, n = NInt i /\ all_true fs i /\ v = h i) /\
  (forall fs h, mt_match V (match_float V D oi of fs h) n = Match v <-> exists x, ((exists i, n = NInt i /\ x = oi i) \/ exists t, n = NFloat t /\ x = of t) /\ all_true fs x /\ v = h x) /\
  (forall f h, mt_match V (match_bool V f h) n = Match v <-> exists b, n = NBool b /\ (f = None \/ f = Some b) /\ v = h b) /\
  (forall h, mt_match V (match_none V h) n = Match v <-> n = NNone /\ v = h) /\
  (forall fs h, mt_match V (match_string V fs h) n = Match v <-> exists s, n = NString s /\ all_true fs s /\ v = h s).
Proof. exact (conj (fun fs h => int_node fs h n v) (conj (fun fs h => float_node oi of fs h n v) (conj (fun f h => bool_node f h n v) (conj (fun h => none_node h n v) (fun fs h => string_node fs h n v))))). Qed.
Print Assumptions C38_scalars.
