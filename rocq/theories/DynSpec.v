From Coq Require Import Reals ZArith List Bool.
From Verif Require Import DynModel.
Import ListNotations.
Open Scope Z_scope.

(** Segments: they begin with 0 and are in the order of starts; starts are representable as long. *)
Definition segments (l : list (Z * parameter)) : Prop :=
  (exists p l', l = (0, p) :: l') /\ (forall a x b y c, l = a ++ x :: b ++ y :: c -> fst x <= fst y) /\ Forall (fun x => 0 <= fst x < 2 ^ 63) l.
(** [x] is the segment with the greatest start not exceeding [c] (the last of them, if some starts are equal), [e] is the next start or the total. *)
Definition current_segment (l : list (Z * parameter)) (c total : Z) (x : Z * parameter) (e : Z) : Prop :=
  exists a b, l = a ++ x :: b /\ fst x <= c /\ (forall y, In y a -> fst y <= fst x) /\ (forall y, In y b -> c < fst y) /\ e = match b with [] => total | n :: _ => fst n end.
(** [l] is not accepted by the constructor *)
Definition misordered (l : list (Z * parameter)) : Prop := l = [] \/ (exists x l', l = x :: l' /\ fst x <> 0) \/ exists a x b y c, l = a ++ x :: b ++ y :: c /\ fst y < fst x.
