From Coq Require Import ZArith List Bool String.
From Verif Require Import TextModel ConfigExamples PyonModel MatchModel MatchSpec MatchProofs.
Import ListNotations.
Open Scope Z_scope.

(** Values are nodes. *)
Definition id (n : node) : node := n.
Definition positive : matcher node := match_int node [fun i => 0 <? i] NInt.
Definition text : matcher node := match_string node [] NString.
(** f(a, b = 7, *args, **kwargs), where a > 0, args are integers and kwargs are texts *)
Definition f : class_matcher node :=
  ClassMatcher node (codes "f") [Param node (codes "a") (Some positive) None; Param node (codes "b") None (Some (NInt 7))]
    (Some (ArrayMatcher node (Some positive) [])) (Some (DictMatcher node [(fun k => text_eqb k (codes "k"), text)] (Some positive) [])) [fun d => Nat.ltb (List.length (cd_args node d)) 3].
Definition f_node : node := NClass (codes "f") [NInt 1; NNone; NInt 5; NInt 6] [(codes "z", NInt 3); (codes "k", NString (codes "t"))].
Definition f_data : class_data node := ClassData node [(codes "a", NInt 1); (codes "b", NNone)] [NInt 5; NInt 6] [(codes "k", NString (codes "t")); (codes "z", NInt 3)].
Definition out (d : class_data node) : node := NArray (map snd (cd_standard node d)).
Lemma f_names : NoDup (map (p_name node) (cm_params node f)). Proof. apply repeated_iff. reflexivity. Qed.
Lemma f_keys : NoDup (map fst [(codes "z", NInt 3); (codes "k", NString (codes "t"))]). Proof. apply repeated_iff. reflexivity. Qed.
Lemma f_matches : match_class_data node id f [NInt 1; NNone; NInt 5; NInt 6] [(codes "z", NInt 3); (codes "k", NString (codes "t"))] = Match f_data. Proof. vm_compute. reflexivity. Qed.
Lemma f_matched : class_matched id f [NInt 1; NNone; NInt 5; NInt 6] [(codes "z", NInt 3); (codes "k", NString (codes "t"))] f_data. Proof. apply class_iff; [exact f_names|exact f_keys|exact f_matches]. Qed.
Lemma f_default : match_class_data node id f [] [(codes "a", NInt 2)] = Match (ClassData node [(codes "a", NInt 2); (codes "b", NInt 7)] [] []). Proof. vm_compute. reflexivity. Qed.
Lemma quiet_int fs h : quiet (match_int node fs h). Proof. intros []; cbn; try discriminate. apply (fun H => H). destruct (filtered fs i); discriminate. Qed.
Lemma quiet_string fs h : quiet (match_string node fs h). Proof. intros []; cbn; try discriminate. destruct (filtered fs s); discriminate. Qed.
Lemma f_quiet : quiet_class f.
Proof. split; [|split]. - repeat (apply Forall_cons); [apply quiet_int|exact I|constructor]. - apply quiet_int. - split; [apply Forall_cons; [apply quiet_string|constructor]|apply quiet_int]. Qed.
(** g(a, b) with nothing else *)
Definition g : class_matcher node := ClassMatcher node (codes "g") [Param node (codes "a") None None; Param node (codes "b") None (Some (NInt 7))] None None [].
Lemma g_excessive : call_error g [NNone; NNone; NNone] []. Proof. apply E_excessive; [reflexivity|cbn; auto]. Qed.
Lemma g_missing : call_error g [] [(codes "b", NNone)]. Proof. apply (E_missing g _ _ 0%nat (Param node (codes "a") None None)); try reflexivity. intros [E|[]]. discriminate. Qed.
Lemma g_twice : call_error g [NNone] [(codes "a", NNone)]. Proof. apply (E_twice g _ _ 0%nat (Param node (codes "a") None None) NNone); try reflexivity. left. reflexivity. Qed.
Lemma g_unknown : call_error g [NNone] [(codes "c", NNone)]. Proof. apply (E_unknown g _ _ (codes "c")); [reflexivity|left; reflexivity|]. intros [E|[E|[]]]; discriminate. Qed.
(** h(a, a): this matcher can be declared *)
Definition h : class_matcher node := ClassMatcher node (codes "h") [Param node (codes "a") None None; Param node (codes "a") None None] None None [].
Lemma h_throws : arguments node (cm_params node h) = true /\ match_class_data node id h [NNone; NNone] [] = Throws. Proof. split; vm_compute; reflexivity. Qed.

(** Alternatives. *)
Definition variants : list (matcher node) := [text; positive; match_int node [] (fun i => NInt (- i)); match_class node id g out; match_class node id f out].
Lemma variants_typed : Forall typed variants.
Proof. repeat (apply Forall_cons); [apply typed_string|apply typed_int|apply typed_int|apply typed_class|apply typed_class|constructor]. Qed.
Lemma variants_match : mt_match node (match_alternative node (alternative_of variants)) (NInt 5) = Match (NInt 5) /\ mt_match node (match_alternative node (alternative_of variants)) (NInt (-5)) = Match (NInt 5) /\ mt_match node (match_alternative node (alternative_of variants)) f_node = Match (NArray [NInt 1; NNone]) /\ mt_match node (match_alternative node (alternative_of variants)) NNone = NoMatch.
Proof. repeat split; vm_compute; reflexivity. Qed.
(** An alternative in an alternative, which is a matcher without a name of a class, is not tried. *)
Definition nested : matcher node := match_alternative node (alternative_of [positive; match_class node id f out]).
Lemma nested_skipped : mt_match node nested f_node = Match (NArray [NInt 1; NNone]) /\ mt_match node (match_alternative node (or_matcher node (alternative_of [text]) nested)) f_node = NoMatch.
Proof. split; vm_compute; reflexivity. Qed.

(** Arrays and dictionaries. *)
Definition two : array_matcher node := ArrayMatcher node (Some positive) [fun l => Nat.eqb (List.length l) 2].
Lemma two_matched : array_matched id two [NInt 3; NInt 4] [NInt 3; NInt 4] /\ match_array_data node id two [NInt 3; NInt 0] = NoMatch /\ match_array_data node id two [NInt 3] = NoMatch.
Proof. split; [apply array_iff; vm_compute; reflexivity|]. split; vm_compute; reflexivity. Qed.
Definition keyed : dict_matcher node := DictMatcher node [(fun k => Nat.ltb 1 (List.length k), positive); (fun _ => true, text)] None [].
Lemma keyed_matched : dict_matched id keyed [(codes "y", NString []); (codes "ab", NInt 3)] [(codes "ab", NInt 3); (codes "y", NString [])].
Proof. apply dict_iff; [apply repeated_iff; reflexivity|vm_compute; reflexivity]. Qed.
