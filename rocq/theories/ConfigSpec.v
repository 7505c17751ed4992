(** What an INI file says. *)
From Coq Require Import ZArith List Bool.
From Verif Require Import OptModel TextModel StringsModel StringsSpec LinesSpec ConfigModel.
Import ListNotations.
Open Scope Z_scope.

(** Things written in a file: a section entry, a field with the lines of its value, something malformed. *)
Inductive item := ISection (name : list Z) | IField (key : list Z) (value : list (list Z)) | IBroken.

Definition no_comment (l : list Z) : Prop := Forall (fun c => c <> 59 /\ c <> 35 /\ c <> newline) l.
(** Nothing, or a comment up to the end of the line. *)
Definition comment (l : list Z) : Prop := l = [] \/ exists c r, l = c :: r /\ (c = 59 \/ c = 35) /\ Forall (fun c => c <> newline) r.
(** White space other than line feeds. *)
Definition blank (w : list Z) : Prop := spaces w /\ Forall (fun c => c <> newline) w.
(** A line with some content: white space around it, a comment after it. *)
Inductive around (content : list Z) : list Z -> Prop :=
| A_line w w' c : blank w -> blank w' -> comment c -> around content (w ++ content ++ w' ++ c).

(** A delimiter which is not special otherwise. *)
Definition clean_delimiter (d : Z) : Prop := is_space d = false /\ d <> 35 /\ d <> 59 /\ d <> 46 /\ d <> 91 /\ d <> 92.
Definition clean_name (n : list Z) : Prop := no_comment n.
Definition clean_key (d : Z) (k : list Z) : Prop := no_comment k /\ trimmed k /\ Forall (fun c => c <> d /\ c <> 46) k /\ (forall r, k <> 91 :: r).
Definition ends_backslash (l : list Z) : Prop := exists r, l = r ++ [92].
(** The lines after the first one of a value: each line before the last one is followed by a backslash, lines without content may stand between. *)
Inductive rest_of_value : list (list Z) -> list (list Z) -> Prop :=
| RV_last v l : no_comment v -> trimmed v -> v <> [] -> ~ ends_backslash v -> around v l -> rest_of_value [v] [l]
| RV_more v w l vs ls : no_comment v -> trimmed v -> blank w -> around (v ++ w ++ [92]) l -> rest_of_value vs ls -> rest_of_value (v :: vs) (l :: ls)
| RV_blank vs l ls : around [] l -> rest_of_value vs ls -> rest_of_value vs (l :: ls).
(** Lines which say an item. *)
Inductive says (d : Z) : item -> list (list Z) -> Prop :=
| S_section n l : clean_name n -> around (91 :: n ++ [93]) l -> says d (ISection n) [l]
| S_field k w w' v l : clean_key d k -> blank w -> blank w' -> no_comment v -> trimmed v -> ~ ends_backslash v ->
    around (k ++ w ++ [d] ++ w' ++ v) l -> says d (IField k [v]) [l]
| S_more k w w' v w'' l vs ls : clean_key d k -> blank w -> blank w' -> blank w'' -> no_comment v -> trimmed v ->
    around (k ++ w ++ [d] ++ w' ++ v ++ w'' ++ [92]) l -> rest_of_value vs ls -> says d (IField k (v :: vs)) (l :: ls)
| S_no_delimiter t l : no_comment t -> trimmed t -> t <> [] -> ~ ends_backslash t -> Forall (fun c => c <> d) t -> (forall r, t <> 91 :: r) -> around t l -> says d IBroken [l]
| S_dotted a b v l : no_comment (a ++ 46 :: b) -> Forall (fun c => c <> d) (a ++ 46 :: b) -> (forall c r, a ++ [46] = c :: r -> is_space c = false /\ c <> 91) -> no_comment v -> trimmed v -> ~ ends_backslash v ->
    around ((a ++ 46 :: b) ++ d :: v) l -> says d IBroken [l]
| S_open t l : no_comment t -> trimmed (91 :: t) -> ~ ends_backslash t -> (forall r, t <> r ++ [93]) -> around (91 :: t) l -> says d IBroken [l].
(** Files: items in any order, with empty lines and comments anywhere. *)
Inductive file (d : Z) : list item -> list (list Z) -> Prop :=
| F_end : file d [] []
| F_blank l is ls : around [] l -> file d is ls -> file d is (l :: ls)
| F_item i ls is ls' : says d i ls -> file d is ls' -> file d (i :: is) (ls ++ ls').
(** Lines of a text, with or without a line feed at its end. *)
Definition text_of (ls : list (list Z)) (t : list Z) : Prop := t = flat_map (fun l => l ++ [newline]) ls \/ (last ls [] <> [] /\ t = joined newline ls).

(** Fields: full keys and values, in the order of appearance. *)
Fixpoint known (k : list Z) (fs : list (list Z * list Z)) : bool := match fs with [] => false | (k', _) :: fs' => text_eqb k k' || known k fs' end.
Fixpoint replace_value (k v : list Z) (fs : list (list Z * list Z)) : list (list Z * list Z) :=
  match fs with [] => [] | (k', v') :: fs' => if text_eqb k k' then (k, v) :: fs' else (k', v') :: replace_value k v fs' end.
(** What the items mean; [None]: an error. *)
Fixpoint meaning (allow : bool) (is : list item) (section : list Z) (fs : list (list Z * list Z)) : option (list (list Z * list Z)) :=
  match is with
  | [] => Some fs
  | ISection n :: is' => meaning allow is' (n ++ [46]) fs
  | IField k vs :: is' =>
    let key := section ++ k in
    let value := trim (joined newline vs) in
    if known key fs then (if allow then meaning allow is' section (replace_value key value fs) else None)
    else meaning allow is' section (fs ++ [(key, value)])
  | IBroken :: _ => None
  end.
(** The section of a key: what stands before its last dot; its root section: what stands before its first dot; nothing if there is no dot. *)
Definition in_section (k s : list Z) : Prop := (exists r, k = s ++ 46 :: r /\ ~ In 46 r) \/ (s = [] /\ ~ In 46 k).
Definition in_root (k s : list Z) : Prop := (exists r, k = s ++ 46 :: r /\ ~ In 46 s) \/ (s = [] /\ ~ In 46 k).
(** Names without repetitions, in the order of the first appearance. *)
Inductive once : list (list Z) -> list (list Z) -> Prop :=
| O_nil : once [] []
| O_old l u n : once l u -> In n u -> once (l ++ [n]) u
| O_new l u n : once l u -> ~ In n u -> once (l ++ [n]) (u ++ [n]).
(** A configuration holds fields: their keys in order, their values, and the names of sections. *)
Definition holds_fields (fs : list (list Z * list Z)) (c : config) : Prop :=
  cf_keys c = map fst fs /\ NoDup (map fst fs) /\ (forall k v, getString c k = Some v <-> In (k, v) fs) /\
  (exists ns, Forall2 in_section (map fst fs) ns /\ once ns (cf_sections c)) /\ (exists ns, Forall2 in_root (map fst fs) ns /\ once ns (cf_roots c)).
(** Fields of a section, with its name taken off. *)
Definition belongs (section k k' : list Z) : Prop := (section = [] /\ k' = k /\ ~ In 46 k) \/ (section <> [] /\ k = section ++ 46 :: k').
Inductive picked (section : list Z) : list (list Z * list Z) -> list (list Z * list Z) -> Prop :=
| P_nil : picked section [] []
| P_take k k' v fs fs' : belongs section k k' -> picked section fs fs' -> picked section ((k, v) :: fs) ((k', v) :: fs')
| P_skip k v fs fs' : (forall k', ~ belongs section k k') -> picked section fs fs' -> picked section ((k, v) :: fs) fs'.
