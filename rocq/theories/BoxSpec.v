(** What a box is, independently of how the code computes with it. *)
From Coq Require Import Reals.
From Verif Require Import GeomModel BoxModel.
Open Scope R_scope.

(** Linear combination of three vectors. *)
Definition lincomb (s0 s1 s2 : vec) (a b c : R) : vec := vadd (vscale a s0) (vadd (vscale b s1) (vscale c s2)).

(** Linear independence of three vectors. *)
Definition lin_indep (s0 s1 s2 : vec) : Prop :=
  forall a b c, lincomb s0 s1 s2 a b c = vzero -> a = 0 /\ b = 0 /\ c = 0.

(** A box that the program can hold: one that some constructor call returned. *)
Definition constructed (b : box) : Prop := exists s0 s1 s2, box_of_sides s0 s1 s2 = Some b.
