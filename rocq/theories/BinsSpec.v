From Coq Require Import Reals ZArith List Bool Permutation.
From Verif Require Import GeomModel BoxModel PbcModel PbcSpec BoxSpec PackSpec HistModel HistSpec BinsModel.
Import ListNotations.
Local Open Scope R_scope.

(** The division of the box: the unit cube of relative coordinates with at least one bin in each direction. *)
Definition cells (nx ny nz : nat) : list dim := [Dim 0 1 (Nat.max nx 1); Dim 0 1 (Nat.max ny 1); Dim 0 1 (Nat.max nz 1)].
Definition number_of_cells (nx ny nz : nat) : nat := (Nat.max nx 1 * Nat.max ny 1 * Nat.max nz 1)%nat.
(** Relative coordinates, in the box, of a periodic image of the i-th particle after moving back by what the origin has moved since [first]. *)
Definition moved_back (first : vec) (fr : frame) (i : nat) (u : vec) : Prop :=
  (forall a, 0 <= vget u a < 1) /\ exists l, is_lattice_vector (fr_box fr) l /\ relativeToAbsolute (fr_box fr) u = vadd (vsub (fst (shape_at fr i)) (vsub (fr_origin fr) first)) l.
Definition in_cell (g : list dim) (idx : list nat) (first : vec) (fr : frame) (i : nat) : Prop :=
  (i < length (fr_shapes fr))%nat /\ exists u, moved_back first fr i u /\ located g idx [vx u; vy u; vz u].
(** A packing in a correct periodic box. *)
Definition periodic_frame (fr : frame) : Prop := constructed (fr_box fr) /\ forall p, terminates_with (fun fuel => getCorrection fuel (fr_box fr) p) (fr_correction fr p).
(** Every particle is handled once, by one of the threads. *)
Definition ordered (threads : nat) (fr : frame) (order : list (nat * nat)) : Prop :=
  periodic_frame fr /\ Permutation (map snd order) (seq 0 (length (fr_shapes fr))) /\ Forall (fun x => (fst x < threads)%nat) order.
(** Threads do iterations of their shares, step by step. *)
Definition iterations (share : list nat) : list event := flat_map (fun i => [Calculate i; Store i]) share.
Definition parallel (threads : nat) (fr : frame) (events : list (nat * event)) : Prop :=
  periodic_frame fr /\ Forall (fun x => (fst x < threads)%nat) events /\
  exists share : nat -> list nat, (forall t, (t < threads)%nat -> map snd (filter (fun x => (fst x =? t)%nat) events) = iterations (share t)) /\
    Permutation (flat_map share (seq 0 threads)) (seq 0 (length (fr_shapes fr))).
(** No other thread is between the two steps of an iteration. *)
Definition exclusive (threads : nat) (fr : frame) (events : list (nat * event)) : Prop :=
  exists order, ordered threads fr order /\ events = flat_map (fun x => [(fst x, Calculate (snd x)); (fst x, Store (snd x))]) order.
Definition all_snapshots {E} (P : frame -> E -> Prop) (cmds : list (command E)) : Prop := forall fr e, In (Snapshot fr e) cmds -> P fr e.
(** Snapshots since the last clear, and the origin of the first of them. *)
Definition recent {E} (cmds : list (command E)) : list (frame * E) := fold_left (fun l c => match c with Snapshot fr e => l ++ [(fr, e)] | Clear => [] end) cmds [].
Definition first_origin {E} (cmds : list (command E)) (first : vec) : Prop := exists fr e rest, recent cmds = (fr, e) :: rest /\ first = fr_origin fr.
(** What one particle contributes to the density. *)
Definition weight (cells : nat) (n : normalization) (fr : frame) : R := match n with AVG_COUNT => 1 | UNIT => INR cells / INR (length (fr_shapes fr)) end.
Definition cell_count {E} (g : list dim) (idx : list nat) (first : vec) (h : frame * E) (n : nat) : Prop := counts (in_cell g idx first (fst h)) n.
(** Components of functions of a particle; for tensors 3/2 a a - 1/2 I. *)
Definition pairs : list (axis * axis) := [(AX, AX); (AX, AY); (AX, AZ); (AY, AY); (AY, AZ); (AZ, AZ)].
Definition number_of_values (f : shape_function) : nat := match f with FConstant _ => 1 | FAxisCoordinate _ _ => 1 | FAxis _ => 3 | FQTensor _ => 6 end.
Definition delta (i j : axis) : R := match i, j with AX, AX => 1 | AY, AY => 1 | AZ, AZ => 1 | _, _ => 0 end.
Definition component (f : shape_function) (c : nat) (orientation : mat) : R :=
  match f with
  | FConstant v => v
  | FAxisCoordinate ax i => vget (mvec orientation ax) i
  | FAxis ax => vget (mvec orientation ax) (nth c [AX; AY; AZ] AX)
  | FQTensor ax => let (i, j) := nth c pairs (AX, AX) in (3 * vget (mvec orientation ax) i * vget (mvec orientation ax) j - delta i j) / 2
  end.
Definition cell_list {E} (g : list dim) (idx : list nat) (first : vec) (h : frame * E) (l : list nat) : Prop := NoDup l /\ forall i, In i l <-> in_cell g idx first (fst h) i.
(** The mean over all particles of lists, one for each snapshot; none if there are no particles. *)
Definition sum_of {E} (f : shape_function) (c : nat) (h : list (frame * E)) (parts : list (list nat)) : R :=
  Rsum (fun x => Rsum (fun i => component f c (snd (shape_at (fst (fst x)) i))) (snd x)) (combine h parts).
Definition size_of (parts : list (list nat)) : nat := list_sum (map (@length nat) parts).
Definition mean_over {E} (f : shape_function) (c : nat) (h : list (frame * E)) (parts : list (list nat)) : option R :=
  if (size_of parts =? 0)%nat then None else Some (sum_of f c h parts / INR (size_of parts)).
Definition amount (x : option R * nat) : R := match fst x with Some v => v | None => 0 end.
