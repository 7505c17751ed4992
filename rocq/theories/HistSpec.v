From Coq Require Import Reals ZArith List Bool.
From Verif Require Import PackSpec HistModel.
Import ListNotations.
Local Open Scope nat_scope.

(** Dimensions: not empty, at least one bin in each. *)
Definition proper (g : list dim) : Prop := Forall (fun d => (d_min d < d_max d)%R /\ 1 <= d_bins d) g.
(** [p] is in the range of the dimension, and in its [i]-th bin: bins are of equal size, closed below and open above, except the last one. *)
Definition in_range (d : dim) (p : R) : Prop := (d_min d <= p <= d_max d)%R.
Definition edge (d : dim) (i : nat) : R := (d_min d + (d_max d - d_min d) * (INR i / INR (d_bins d)))%R.
Definition in_bin (d : dim) (i : nat) (p : R) : Prop := i < d_bins d /\ (edge d i <= p)%R /\ ((p < edge d (i + 1))%R \/ i + 1 = d_bins d /\ p = d_max d).
(** Indices of bins in all dimensions. *)
Definition index_of (g : list dim) (idx : list nat) : Prop := Forall2 (fun d i => i < d_bins d) g idx.
Definition located (g : list dim) (idx : list nat) (pos : list R) : Prop := Forall2 (fun d x => in_bin d (fst x) (snd x)) g (combine idx pos) /\ length idx = length g.
(** Additions: thread, position, value. *)
Record addition := Addition { a_thread : nat; a_pos : list R; a_value : R }.
Definition legal (g : list dim) (threads : nat) (a : addition) : Prop := a_thread a < threads /\ Forall2 in_range g (a_pos a).
(** The number of additions in the bin, and the sum of their values. *)
Definition here (g : list dim) (idx : list nat) (a : addition) (yes : bool) : Prop := yes = true <-> located g idx (a_pos a).
Inductive tally (g : list dim) (idx : list nat) : list addition -> R -> nat -> Prop :=
| T_none : tally g idx [] 0 0
| T_here a l v n : located g idx (a_pos a) -> tally g idx l v n -> tally g idx (a :: l) (a_value a + v) (n + 1)
| T_other a l v n : ~ located g idx (a_pos a) -> tally g idx l v n -> tally g idx (a :: l) v n.
(** Running: snapshots, each of them with additions made in some order. *)
Fixpoint adds (g : list dim) (l : list addition) (b : builder) : option builder := match l with [] => Some b | a :: l' => match add g (a_thread a) (a_pos a) (a_value a) b with None => None | Some b' => adds g l' b' end end.
Fixpoint run (g : list dim) (initial : R) (s : list (list addition)) (b : builder) : option builder := match s with [] => Some b | l :: s' => match adds g l b with None => None | Some b' => run g initial s' (nextSnapshot initial b') end end.
