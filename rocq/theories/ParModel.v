(** The parallel loops of [src/core/Packing.cpp] with an early exit through a shared flag:
    countTotalOverlaps (519-559) and countWallOverlaps (561-580).

    The runtime may give any iterations to any thread and interleave the threads in any way. Each iteration loads the flag,
    computes, stores to the flag and adds to a private accumulator; the accumulators are added up at the end (reduction).
    The flag is read and written with relaxed memory order: a load may return a stale [false], but [true] only if it has
    been stored. *)
From Coq Require Import Reals ZArith List Bool Permutation.
From Verif Require Import GeomModel PbcModel NGModel PackModel.
Import ListNotations.
Open Scope nat_scope.

Section ParallelFor.
Variables (A : Type) (ee : bool) (f : A -> option nat).

(** A thread: iterations it still has to do (with the current one at the front), whether it is past loading the flag in
    the current one, its private accumulator. *)
Record worker := Worker { wk_todo : list A; wk_busy : bool; wk_acc : nat }.
Record pstate := PState { ps_flag : bool; ps_workers : list worker }.

(** Packing.cpp:530-539 and 569-576: one thread takes a step. *)
Inductive wstep : bool -> worker -> bool -> worker -> Prop :=
| step_skip : forall x l acc, ee = true -> wstep true (Worker (x :: l) false acc) true (Worker l false acc)
| step_start : forall fl x l acc, wstep fl (Worker (x :: l) false acc) fl (Worker (x :: l) true acc)
| step_compute : forall fl x l acc n, f x = Some n ->
    wstep fl (Worker (x :: l) true acc) (fl || (ee && Nat.ltb 0 n)) (Worker l false (acc + n)).
Inductive pstep : pstate -> pstate -> Prop :=
| pstep_any : forall fl fl' ws1 w ws2 w', wstep fl w fl' w' ->
    pstep (PState fl (ws1 ++ w :: ws2)) (PState fl' (ws1 ++ w' :: ws2)).
Inductive psteps : pstate -> pstate -> Prop :=
| psteps_refl : forall s, psteps s s
| psteps_next : forall s s' s'', pstep s s' -> psteps s' s'' -> psteps s s''.

Definition started (chunks : list (list A)) : pstate := PState false (map (fun l => Worker l false 0) chunks).
Definition finished (s : pstate) : Prop := forall w, In w (ps_workers s) -> wk_todo w = [].
Definition reduction (s : pstate) : nat := fold_right (fun w r => wk_acc w + r) 0 (ps_workers s).
(** [r] may be the result of the loop over [all]. *)
Definition parallel_for (all : list A) (r : nat) : Prop :=
  exists chunks s, Permutation (concat chunks) all /\ psteps (started chunks) s /\ finished s /\ reduction s = r.
End ParallelFor.
Arguments Worker {A}. Arguments PState {A}. Arguments wk_todo {A}. Arguments wk_busy {A}. Arguments wk_acc {A}.
Arguments ps_flag {A}. Arguments ps_workers {A}.

(** Packing.cpp:561-580. *)
Definition parallelWallOverlaps (pk : packing) (inter : interaction) (ee : bool) (n : nat) : Prop :=
  if negb (hasAnyWalls pk) then n = 0
  else parallel_for particle ee (countParticleWallOverlaps pk inter ee) (pk_parts pk) n.
(** Packing.cpp:519-559. *)
Definition parallelTotalOverlaps (pk : packing) (inter : interaction) (ee : bool) (n : nat) : Prop :=
  exists m,
    match pk_ng pk with
    | Some g => parallel_for cvec ee (cell_overlaps pk g inter ee) (all_cells (getCellDivisions g)) m
    | None => all_pairs_overlaps pk inter ee (pk_parts pk) = Some m
    end /\
    if ee && Nat.ltb 0 m
    then n = match pk_ng pk with Some _ => 1 | None => m end
    else exists w, parallelWallOverlaps pk inter ee w /\ n = m + w.
