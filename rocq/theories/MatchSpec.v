(** What matching means. *)
From Coq Require Import ZArith List Bool Sorted.
From Verif Require Import TextModel PyonModel MatchModel.
Import ListNotations.
Open Scope Z_scope.

Section Spec.
Context {V : Type} (of_node : node -> V).
(** A node is accepted with a value; without a matcher every node is, as it is. *)
Definition accepts (m : option (matcher V)) (n : node) (v : V) : Prop := match m with None => v = of_node n | Some m => mt_match V m n = Match v end.
Definition all_true {A} (fs : list (A -> bool)) (a : A) : Prop := Forall (fun f => f a = true) fs.

(** Arrays: each element is accepted, then the filters are true. *)
Definition array_matched (a : array_matcher V) (l : list node) (vs : list V) : Prop := Forall2 (accepts (am_element V a)) l vs /\ all_true (am_filters V a) vs.

(** Dictionaries: the first key matcher which accepts the key, or the default one if there is none. *)
Definition key_value (d : dict_matcher V) (k : list Z) (n : node) (v : V) : Prop :=
  (exists a km b, dm_keys V d = a ++ km :: b /\ Forall (fun x => fst x k = false) a /\ fst km k = true /\ mt_match V (snd km) n = Match v) \/
  (Forall (fun x => fst x k = false) (dm_keys V d) /\ accepts (dm_default V d) n v).
Definition dict_matched (d : dict_matcher V) (l : list (list Z * node)) (vs : list (list Z * V)) : Prop :=
  StronglySorted (fun x y => text_ltb (fst x) (fst y) = true) vs /\
  (forall k n, In (k, n) l -> exists v, In (k, v) vs /\ key_value d k n v) /\
  (forall k v, In (k, v) vs -> exists n, In (k, n) l /\ key_value d k n v) /\
  all_true (dm_filters V d) vs.

(** Calls: an error as in Python. *)
Inductive call_error (c : class_matcher V) (pos : list node) (kw : list (list Z * node)) : Prop :=
| E_excessive : cm_args V c = None -> (length (cm_params V c) < length pos)%nat -> call_error c pos kw
| E_missing i p : nth_error (cm_params V c) i = Some p -> nth_error pos i = None -> ~ In (p_name V p) (map fst kw) -> p_default V p = None -> call_error c pos kw
| E_twice i p n : nth_error (cm_params V c) i = Some p -> nth_error pos i = Some n -> In (p_name V p) (map fst kw) -> call_error c pos kw
| E_unknown k : cm_kwargs V c = None -> In k (map fst kw) -> ~ In k (map (p_name V) (cm_params V c)) -> call_error c pos kw.
(** The value of the [i]-th parameter. *)
Inductive bound (pos : list node) (kw : list (list Z * node)) (i : nat) (p : param V) : V -> Prop :=
| B_positional n v : nth_error pos i = Some n -> accepts (p_matcher V p) n v -> bound pos kw i p v
| B_keyword n v : nth_error pos i = None -> In (p_name V p, n) kw -> accepts (p_matcher V p) n v -> bound pos kw i p v
| B_default v : nth_error pos i = None -> ~ In (p_name V p) (map fst kw) -> p_default V p = Some v -> bound pos kw i p v.
Definition class_matched (c : class_matcher V) (pos : list node) (kw : list (list Z * node)) (d : class_data V) : Prop :=
  ~ call_error c pos kw /\
  length (cd_standard V d) = length (cm_params V c) /\
  (forall i p, nth_error (cm_params V c) i = Some p -> exists v, nth_error (cd_standard V d) i = Some (p_name V p, v) /\ bound pos kw i p v) /\
  match cm_args V c with None => cd_args V d = [] | Some a => array_matched a (skipn (length (cm_params V c)) pos) (cd_args V d) end /\
  match cm_kwargs V c with None => cd_kwargs V d = [] | Some m => dict_matched m (filter (fun e => negb (existsb (text_eqb (fst e)) (map (p_name V) (cm_params V c)))) kw) (cd_kwargs V d) end /\
  all_true (cm_filters V c) d.
(** No exceptions in matchers which are used. *)
Definition quiet (m : matcher V) : Prop := forall n, mt_match V m n <> Throws.
Definition quiet_opt (m : option (matcher V)) : Prop := match m with None => True | Some m => quiet m end.
Definition quiet_dict (d : dict_matcher V) : Prop := Forall (fun km => quiet (snd km)) (dm_keys V d) /\ quiet_opt (dm_default V d).
Definition quiet_class (c : class_matcher V) : Prop :=
  Forall (fun p => quiet_opt (p_matcher V p)) (cm_params V c) /\ match cm_args V c with None => True | Some a => quiet_opt (am_element V a) end /\ match cm_kwargs V c with None => True | Some d => quiet_dict d end.

(** Alternatives: the first variant which matches. *)
Definition first_of (ms : list (matcher V)) (n : node) (v : V) : Prop := exists a m b, ms = a ++ m :: b /\ Forall (fun x => mt_match V x n = NoMatch) a /\ mt_match V m n = Match v.
(** A matcher matches only nodes of its types; classes are matched only by matchers of these classes. *)
Definition typed (m : matcher V) : Prop := forall n, mt_match V m n <> NoMatch -> mt_type V m (getType n) = true /\ forall k p q, n = NClass k p q -> mt_class V m = Some k.
(** m1 | m2 | ... *)
Definition alternative_of (ms : list (matcher V)) : alternative V := fold_left (or_matcher V) ms (no_alternatives V).
End Spec.
