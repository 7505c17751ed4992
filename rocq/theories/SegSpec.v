From Coq Require Import Reals.
From Verif Require Import GeomModel.
Open Scope R_scope.

(** A point of the segment joining [p] and [q]. *)
Definition on_segment (p q x : vec) : Prop := exists t, 0 <= t <= 1 /\ x = vadd p (vscale t (vsub q p)).
Definition distance (p q : vec) : R := vnorm (vsub p q).
(** Squared area of the parallelogram spanned by the segments: zero for parallel ones. *)
Definition spread (s11 s12 s21 s22 : vec) : R := vnorm2 (vcross (vsub s12 s11) (vsub s22 s21)).
(** [x] is the distance between the closest points of both segments. *)
Definition segments_distance (s11 s12 s21 s22 : vec) (x : R) : Prop :=
  (exists p q, on_segment s11 s12 p /\ on_segment s21 s22 q /\ distance p q = x) /\
  (forall p q, on_segment s11 s12 p -> on_segment s21 s22 q -> x <= distance p q).

(** How much the calculated distance may exceed the real one: 10^-10 is the precision of the source, [k] a lower bound of squared lengths
    and, for segments which are not almost parallel, of [spread]. *)
Definition tiny : R := / 10 ^ 10.
Inductive error_bound (s11 s12 s21 s22 : vec) : R -> Prop :=
| crossed k : 0 < k -> tiny <= spread s11 s12 s21 s22 -> k <= vnorm2 (vsub s12 s11) -> k <= vnorm2 (vsub s22 s21) -> k <= spread s11 s12 s21 s22 ->
    error_bound s11 s12 s21 s22 (tiny / k * (vnorm (vsub s12 s11) + vnorm (vsub s22 s21)))
| parallel k : 0 < k -> spread s11 s12 s21 s22 < tiny -> s11 = s12 \/ k <= vnorm2 (vsub s12 s11) -> k <= vnorm2 (vsub s22 s21) ->
    error_bound s11 s12 s21 s22 (sqrt (spread s11 s12 s21 s22 / k) + tiny / k * (vnorm (vsub s12 s11) + vnorm (vsub s22 s21)))
| points : s11 = s12 -> s21 = s22 -> error_bound s11 s12 s21 s22 0.
