(** C39: piecewise parameters. *)
From Coq Require Import Reals ZArith List Bool.
From Verif Require Import DynModel DynSpec DynProofs.
Import ListNotations.
Open Scope Z_scope.

(** The segment containing the cycle is used, in its own count of cycles and with its own total. *)
Theorem C39_segment l us c total : segments l -> piecewise l = Some us -> 0 <= c <= total -> total <= size_max -> (forall x, In x l -> fst x <= total) ->
  exists x e, current_segment l c total x e /\ fst x <= c /\ c - fst x <= e - fst x /\ piecewise_value us c total = snd x (c - fst x) (e - fst x).
Proof. exact (piecewise_at l us c total). Qed.
Print Assumptions C39_segment.
Example C39_segment_case : segments three /\ exists us, piecewise three = Some us /\ piecewise_value us 1500 5000 = Some (1 + 500 * 2)%R /\ piecewise_value us 1000 5000 = Some (1 + 0 * 2)%R /\ piecewise_value us 999 5000 = Some 5%R.
Proof. exact (conj three_segments three_value). Qed.
(** There is only one such segment. *)
Theorem C39_unique l c total x e x' e' : current_segment l c total x e -> current_segment l c total x' e' -> x = x' /\ e = e'.
Proof. exact (segment_unique l c total x e x' e'). Qed.
Print Assumptions C39_unique.

(** Cycles after the total and segments which begin after it are refused. *)
Theorem C39_outside l us c total : segments l -> piecewise l = Some us -> 0 <= c -> (total < c \/ exists x, In x l /\ total < fst x) -> piecewise_value us c total = None.
Proof. exact (piecewise_outside l us c total). Qed.
Print Assumptions C39_outside.
Example C39_outside_case : segments three /\ 4999 < 5000 /\ (exists x, In x three /\ 2000 < fst x).
Proof. split; [exact three_segments|]. split; [reflexivity|]. exists (4000, exponential 1 2). split; [right; right; left; reflexivity|reflexivity]. Qed.

(** Exactly the lists which are empty, do not begin with 0 or are not ordered are refused. *)
Theorem C39_refused l : piecewise l = None <-> misordered l.
Proof. exact (piecewise_refused l). Qed.
Print Assumptions C39_refused.

(** A shifted parameter counts cycles from the shift; the total is limited by the range of size_t. *)
Theorem C39_shifted s p c t : 0 <= c <= size_max -> 0 <= t <= size_max -> - 2 ^ 63 < s < 2 ^ 63 ->
  shifted s p c t = (if (0 <=? c - s) && (c - s <=? size_max) && (0 <=? t - s) then p (c - s) (Z.min (t - s) size_max) else None).
Proof. exact (shifted_value s p c t). Qed.
Print Assumptions C39_shifted.
Example C39_shifted_case : shifted (-10) (linear 1 0) 5 7 = Some (0 + 15 * 1)%R /\ shifted 10 (linear 1 0) 5 70 = None.
Proof. split; reflexivity. Qed.

(** Constant, linear and exponential ones. *)
Theorem C39_values a b c t : constant a c t = Some a /\ linear a b c t = Some (b + a * IZR c)%R /\ exponential a b c t = Some (a * exp (b * IZR c))%R.
Proof. exact (plain_values a b c t). Qed.
Print Assumptions C39_values.

(** Starts beyond the range of long are accepted although they cannot be used. *)
Theorem C39_long_refuted : piecewise [(0, constant 0); (size_max, linear 1 0)] <> None /\ piecewise_value (match piecewise [(0, constant 0); (size_max, linear 1 0)] with Some us => us | None => [] end) size_max size_max = None.
Proof. exact (conj wrapped_built wrapped). Qed.
Print Assumptions C39_long_refuted.
