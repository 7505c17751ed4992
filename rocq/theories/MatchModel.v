(** [src/pyon/Matcher*.h] and [.cpp]: matching of PYON nodes. Descriptions and texts of reports are not modelled. A matcher, which is an object with
    virtual functions, is the record of these functions; filters and mappings given by the user are functions which do not throw. *)
From Coq Require Import ZArith List Bool.
From Verif Require Import TextModel PyonModel.
Import ListNotations.
Open Scope Z_scope.

(** Node.h:Type *)
Inductive ntype := TInt | TFloat | TBool | TString | TNone | TArray | TDict | TClass.
Definition ntype_eqb (a b : ntype) : bool :=
  match a, b with
  | TInt, TInt | TFloat, TFloat | TBool, TBool | TString, TString | TNone, TNone | TArray, TArray | TDict, TDict | TClass, TClass => true
  | _, _ => false
  end.
Definition getType (n : node) : ntype :=
  match n with NNone => TNone | NBool _ => TBool | NInt _ => TInt | NFloat _ => TFloat | NString _ => TString | NArray _ => TArray | NDict _ => TDict | NClass _ _ _ => TClass end.

(** MatcherBase.h:20-35: a successful match with its value, a failed one, or an exception *)
Inductive report (A : Type) := Match (a : A) | NoMatch | Throws.
Arguments Match {A} a.
Arguments NoMatch {A}.
Arguments Throws {A}.
Definition mbind {A B} (r : report A) (f : A -> report B) : report B := match r with Match a => f a | NoMatch => NoMatch | Throws => Throws end.
(** for (filter: filters) if (!filter.predicate(data)) return ...; *)
Definition filtered {A} (filters : list (A -> bool)) (a : A) : bool := forallb (fun f => f a) filters.

Section Matchers.
(** [V]: values held by Any; [of_node]: a node as Any; [D]: double; [of_int], [of_float]: conversions to double *)
Variables (V D : Type) (of_node : node -> V) (of_int : Z -> D) (of_float : list Z -> D).

(** MatcherBase.h:37-45; [mt_class]: the name of a dataclass matcher (MatcherAlternative stores these separately) *)
Record matcher := Matcher { mt_match : node -> report V; mt_type : ntype -> bool; mt_class : option (list Z) }.

(** MatcherNumeral.h:64-75, 195-210 *)
Definition match_int (filters : list (Z -> bool)) (mapping : Z -> V) : matcher :=
  Matcher (fun n => match n with NInt i => if filtered filters i then Match (mapping i) else NoMatch | _ => NoMatch end) (ntype_eqb TInt) None.
(** MatcherNumeral.h:64-75, 220-245 *)
Definition match_float (filters : list (D -> bool)) (mapping : D -> V) : matcher :=
  Matcher (fun n => match n with
    | NInt i => if filtered filters (of_int i) then Match (mapping (of_int i)) else NoMatch
    | NFloat t => if filtered filters (of_float t) then Match (mapping (of_float t)) else NoMatch
    | _ => NoMatch end) (fun t => ntype_eqb TInt t || ntype_eqb TFloat t) None.
(** MatcherBoolean.cpp:18-35 *)
Definition match_bool (filter : option bool) (mapping : bool -> V) : matcher :=
  Matcher (fun n => match n with NBool b => match filter with Some f => if Bool.eqb f b then Match (mapping b) else NoMatch | None => Match (mapping b) end | _ => NoMatch end) (ntype_eqb TBool) None.
(** MatcherNone.cpp:13-24 *)
Definition match_none (mapping : V) : matcher := Matcher (fun n => match n with NNone => Match mapping | _ => NoMatch end) (ntype_eqb TNone) None.
(** MatcherString.cpp:27-38 *)
Definition match_string (filters : list (list Z -> bool)) (mapping : list Z -> V) : matcher :=
  Matcher (fun n => match n with NString s => if filtered filters s then Match (mapping s) else NoMatch | _ => NoMatch end) (ntype_eqb TString) None.

(** MatcherArray.h:84-95; no element matcher: elements are given as nodes *)
Record array_matcher := ArrayMatcher { am_element : option matcher; am_filters : list (list V -> bool) }.
(** MatcherArray.cpp:75-88 *)
Fixpoint match_elements (m : matcher) (l : list node) : report (list V) :=
  match l with [] => Match [] | n :: l' => mbind (mt_match m n) (fun v => mbind (match_elements m l') (fun vs => Match (v :: vs))) end.
(** MatcherArray.cpp:70-96 before the mapping *)
Definition match_array_data (a : array_matcher) (l : list node) : report (list V) :=
  mbind (match am_element a with None => Match (map of_node l) | Some m => match_elements m l end) (fun vs => if filtered (am_filters a) vs then Match vs else NoMatch).
Definition match_array (a : array_matcher) (mapping : list V -> V) : matcher :=
  Matcher (fun n => match n with NArray l => mbind (match_array_data a l) (fun vs => Match (mapping vs)) | _ => NoMatch end) (ntype_eqb TArray) None.

(** MatcherDictionary.h: key matchers, the default one, filters; data: the entries in the order of keys *)
Record dict_matcher := DictMatcher { dm_keys : list ((list Z -> bool) * matcher); dm_default : option matcher; dm_filters : list (list (list Z * V) -> bool) }.
(** NodeDictionary.cpp:10-19: nodes are kept in a std::map, iteration is in the order of keys *)
Definition as_map (l : list (list Z * node)) : list (list Z * node) := fold_left (fun m e => map_set (fst e) (snd e) m) l [].
(** MatcherDictionary.cpp:166-187 *)
Definition match_key (d : dict_matcher) (k : list Z) (n : node) : report V :=
  match find (fun km => fst km k) (dm_keys d) with
  | Some km => mt_match (snd km) n
  | None => match dm_default d with None => Match (of_node n) | Some m => mt_match m n end
  end.
(** MatcherDictionary.cpp:152-164 *)
Fixpoint match_keys (d : dict_matcher) (l : list (list Z * node)) (acc : list (list Z * V)) : report (list (list Z * V)) :=
  match l with [] => Match acc | (k, n) :: l' => mbind (match_key d k n) (fun v => match_keys d l' (map_set k v acc)) end.
(** MatcherDictionary.cpp:189-205 before the mapping *)
Definition match_dict_data (d : dict_matcher) (l : list (list Z * node)) : report (list (list Z * V)) :=
  mbind (match_keys d (as_map l) []) (fun vs => if filtered (dm_filters d) vs then Match vs else NoMatch).
Definition match_dict (d : dict_matcher) (mapping : list (list Z * V) -> V) : matcher :=
  Matcher (fun n => match n with NDict l => mbind (match_dict_data d l) (fun vs => Match (mapping vs)) | _ => NoMatch end) (ntype_eqb TDict) None.

(** MatcherDataclass.h:89-127: a standard argument *)
Record param := Param { p_name : list Z; p_matcher : option matcher; p_default : option V }.
(** MatcherDataclass.h:57-83: standard, variadic, variadic keyword arguments *)
Record class_data := ClassData { cd_standard : list (list Z * V); cd_args : list V; cd_kwargs : list (list Z * V) }.
(** MatcherDataclass.h:130-142; [*args], [**kwargs]: [None] if not declared *)
Record class_matcher := ClassMatcher {
  cm_name : list Z; cm_params : list param; cm_args : option array_matcher; cm_kwargs : option dict_matcher; cm_filters : list (class_data -> bool) }.
(** MatcherDataclass.cpp:272-285: [false] if DataclassException is thrown *)
Fixpoint arguments (ps : list param) : bool :=
  match ps with
  | prev :: ((curr :: _) as ps') => negb (match p_default prev, p_default curr with Some _, None => true | _, _ => false end) && arguments ps'
  | _ => true
  end.
(** NodeDictionary::hasKey and at on a std::map *)
Fixpoint at_key (k : list Z) (m : list (list Z * node)) : option node :=
  match m with [] => None | (k', n) :: m' => if text_eqb k k' then Some n else at_key k m' end.
Definition hasKey (k : list Z) (m : list (list Z * node)) : bool := match at_key k m with Some _ => true | None => false end.
Definition isStandard (ps : list param) (k : list Z) : bool := existsb (fun p => text_eqb (p_name p) k) ps.
(** MatcherDataclass.cpp:443-530 *)
Definition excessive (c : class_matcher) (pos : list node) : bool := match cm_args c with Some _ => false | None => Nat.ltb (length (cm_params c)) (length pos) end.
Definition missing (c : class_matcher) (pos : list node) (kw : list (list Z * node)) : bool :=
  existsb (fun p => negb (hasKey (p_name p) kw) && match p_default p with Some _ => false | None => true end) (skipn (length pos) (cm_params c)).
Definition redefined (c : class_matcher) (pos : list node) (kw : list (list Z * node)) : bool := existsb (fun p => hasKey (p_name p) kw) (firstn (length pos) (cm_params c)).
Definition unknown (c : class_matcher) (kw : list (list Z * node)) : bool :=
  match cm_kwargs c with Some _ => false | None => existsb (fun e => negb (isStandard (cm_params c) (fst e))) kw end.
(** MatcherDataclass.cpp:363-381 *)
Definition emplaceArgument (p : param) (n : node) : report (list Z * V) :=
  match p_matcher p with None => Match (p_name p, of_node n) | Some m => mbind (mt_match m n) (fun v => Match (p_name p, v)) end.
(** MatcherDataclass.cpp:332-338: pairs of parameters and given arguments, as many as there are of both *)
Fixpoint positional (ps : list param) (pos : list node) : report (list (list Z * V)) :=
  match ps, pos with
  | p :: ps', n :: pos' => mbind (emplaceArgument p n) (fun v => mbind (positional ps' pos') (fun vs => Match (v :: vs)))
  | _, _ => Match []
  end.
(** MatcherDataclass.cpp:341-356 *)
Fixpoint by_keyword (ps : list param) (kw : list (list Z * node)) : report (list (list Z * V)) :=
  match ps with
  | [] => Match []
  | p :: ps' =>
    mbind (match at_key (p_name p) kw with
           | Some n => emplaceArgument p n
           | None => match p_default p with Some v => Match (p_name p, v) | None => Throws end
           end) (fun v => mbind (by_keyword ps' kw) (fun vs => Match (v :: vs)))
  end.
(** MatcherDataclass.cpp:10-21: names have to be distinct *)
Fixpoint repeated (ks : list (list Z)) : bool := match ks with [] => false | k :: ks' => existsb (text_eqb k) ks' || repeated ks' end.
(** MatcherDataclass.cpp:317-361 *)
Definition matchStandardArguments (c : class_matcher) (pos : list node) (kw : list (list Z * node)) : report (list (list Z * V)) :=
  if excessive c pos || missing c pos kw || redefined c pos kw || unknown c kw then NoMatch
  else mbind (positional (cm_params c) pos) (fun a => mbind (by_keyword (skipn (length pos) (cm_params c)) kw) (fun b => if repeated (map fst (a ++ b)) then Throws else Match (a ++ b))).
(** MatcherArray{}.empty() and MatcherDictionary{}.empty(), MatcherDataclass.h:138-139 *)
Definition no_args : array_matcher := ArrayMatcher None [fun vs => match vs with [] => true | _ => false end].
Definition no_kwargs : dict_matcher := DictMatcher [] None [fun vs => match vs with [] => true | _ => false end].
Definition or_default {A} (o : option A) (d : A) : A := match o with Some a => a | None => d end.
(** MatcherDataclass.cpp:122-160, 283-315 before the mapping *)
Definition match_class_data (c : class_matcher) (pos : list node) (kw0 : list (list Z * node)) : report class_data :=
  let kw := as_map kw0 in
  mbind (matchStandardArguments c pos kw) (fun std =>
  mbind (match_array_data (or_default (cm_args c) no_args) (skipn (length (cm_params c)) pos)) (fun args =>
  mbind (match_dict_data (or_default (cm_kwargs c) no_kwargs) (filter (fun e => negb (isStandard (cm_params c) (fst e))) kw)) (fun kwargs =>
  let data := ClassData std args kwargs in if filtered (cm_filters c) data then Match data else NoMatch))).
Definition match_class (c : class_matcher) (mapping : class_data -> V) : matcher :=
  Matcher (fun n => match n with
    | NClass name pos kw => if text_eqb name (cm_name c) then mbind (match_class_data c pos kw) (fun d => Match (mapping d)) else NoMatch
    | _ => NoMatch end) (ntype_eqb TClass) (Some (cm_name c)).

(** MatcherAlternative.h:17-18; the dataclass matchers are among the alternatives, too *)
Record alternative := Alternative { al_dataclasses : list matcher; al_alternatives : list matcher }.
Definition no_alternatives : alternative := Alternative [] [].
(** MatcherAlternative.h:40-58 *)
Definition or_matcher (a : alternative) (m : matcher) : alternative :=
  match mt_class m with
  | Some _ => Alternative (al_dataclasses a ++ [m]) (al_alternatives a ++ [m])
  | None => Alternative (al_dataclasses a) (al_alternatives a ++ [m])
  end.
Definition or_alternative (a b : alternative) : alternative := Alternative (al_dataclasses a ++ al_dataclasses b) (al_alternatives a ++ al_alternatives b).
(** MatcherAlternative.cpp:50-66 *)
Definition collectVariants (a : alternative) (n : node) : list matcher :=
  match n with
  | NClass name _ _ => filter (fun m => match mt_class m with Some k => text_eqb k name | None => false end) (al_dataclasses a)
  | _ => filter (fun m => mt_type m (getType n)) (al_alternatives a)
  end.
(** MatcherAlternative.cpp:68-90 *)
Fixpoint first_match (ms : list matcher) (n : node) : report V :=
  match ms with
  | [] => NoMatch
  | m :: ms' => match mt_match m n with Match v => Match v | NoMatch => first_match ms' n | Throws => Throws end
  end.
(** MatcherAlternative.cpp:92-97 *)
Definition match_alternative (a : alternative) : matcher :=
  Matcher (fun n => first_match (collectVariants a n) n) (fun t => existsb (fun m => mt_type m t) (al_alternatives a)) None.
End Matchers.
