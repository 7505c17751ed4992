From Coq Require Import Reals List.
From Verif Require Import GeomModel PackSpec.
Import ListNotations.
Local Open Scope R_scope.

Definition symmetric (m : mat) : Prop := m01 m = m10 m /\ m02 m = m20 m /\ m12 m = m21 m.
(** The characteristic polynomial: det (x - m). *)
Definition charpoly (m : mat) (x : R) : R := mdet (msub (mscale x mid) m).
Definition meanOf (axes : list vec) (f : vec -> R) : R := Rsum f axes / INR (length axes).
