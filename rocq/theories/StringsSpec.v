(** Occurrences, replacements and the order of versions. *)
From Coq Require Import ZArith List Bool.
From Verif Require Import TextModel StringsModel.
Import ListNotations.
Open Scope Z_scope.

Definition occurs (search s : list Z) : Prop := exists a b, s = a ++ search ++ b.
(** From left to right, the first occurrence is replaced and the rest after it is processed in the same way. *)
Inductive replaced (search replace : list Z) : list Z -> list Z -> Prop :=
| R_none s : ~ occurs search s -> replaced search replace s s
| R_first a b t : (forall a' b', a ++ search ++ b = a' ++ search ++ b' -> (length a <= length a')%nat) ->
    replaced search replace b t -> replaced search replace (a ++ search ++ b) (a ++ replace ++ t).

(** Parts with a delimiter between each two of them. *)
Fixpoint joined_by (delim : list Z) (ps : list (list Z)) : list Z := match ps with [] => [] | [p] => p | p :: ps' => p ++ delim ++ joined_by delim ps' end.

(** Text without white space at the ends. *)
Definition trimmed (s : list Z) : Prop := (forall c r, s = c :: r -> is_space c = false) /\ (forall c r, s = r ++ [c] -> is_space c = false).
Definition spaces (w : list Z) : Prop := Forall (fun c => is_space c = true) w.

Definition version_ok (v : version) : Prop := 0 <= v_major v < 2 ^ 64 /\ 0 <= v_minor v < 2 ^ 64 /\ 0 <= v_patch v < 2 ^ 64.
(** Major numbers are compared first, then minor ones, then patches. *)
Definition older (a b : version) : Prop :=
  v_major a < v_major b \/ (v_major a = v_major b /\ (v_minor a < v_minor b \/ (v_minor a = v_minor b /\ v_patch a < v_patch b))).
