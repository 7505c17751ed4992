(** Lines of a text. *)
From Coq Require Import ZArith List Bool.
Import ListNotations.
Open Scope Z_scope.

(** Pieces with a delimiter between each two of them. *)
Fixpoint joined (d : Z) (pieces : list (list Z)) : list Z :=
  match pieces with [] => [] | [p] => p | p :: ps => p ++ d :: joined d ps end.
(** The pieces of [l]: it is cut at every delimiter. *)
Definition pieces_of (d : Z) (l : list Z) (ps : list (list Z)) : Prop :=
  ps <> [] /\ Forall (Forall (fun c => c <> d)) ps /\ l = joined d ps.
(** An empty first piece is not reported. *)
Definition reported (ps : list (list Z)) : list (list Z) := match ps with [] :: ps' => ps' | _ => ps end.
