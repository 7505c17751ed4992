(** [src/core/observables/Histogram.h], [.tpp] and [HistogramBuilder.h], [.tpp]. Arrays of DIM elements are lists; values are real numbers; [None]: a
    failed precondition. *)
From Coq Require Import Reals ZArith List Bool.
From Verif Require Import GeomModel RFloorModel.
Import ListNotations.
Local Open Scope nat_scope.

(** Histogram.h:76-81: one dimension: min, max, numBins *)
Record dim := Dim { d_min : R; d_max : R; d_bins : nat }.
(** std::accumulate(..., std::multiplies{}); the product is in fact calculated in double *)
Definition size (g : list dim) : nat := fold_left (fun a d => a * d_bins d) g 1.
(** Histogram.tpp:9-20 *)
Definition step (d : dim) : R := ((d_max d - d_min d) / INR (d_bins d))%R.
Definition ValueCount := (R * nat)%type.
Definition create (g : list dim) (initial : R) : option (list ValueCount) :=
  if negb (forallb (fun d => Rltb (d_min d) (d_max d)) g) then None
  else if negb (1 <=? size g) then None else Some (repeat (initial, 0) (size g)).
(** Histogram.tpp:58-66, one dimension *)
Definition bin_index (d : dim) (p : R) : nat := let i := Z.to_nat (Rfl ((p - d_min d) / step d)) in if d_bins d <=? i then d_bins d - 1 else i.
Definition calculateBinIndex (g : list dim) (pos : list R) : list nat := map (fun x => bin_index (fst x) (snd x)) (combine g pos).
(** Histogram.tpp:68-74 *)
Definition flattenIndex (g : list dim) (idx : list nat) : nat := fold_left (fun flat x => d_bins (fst x) * flat + snd x) (combine g idx) 0.
(** Histogram.tpp:81-93: the index of the bin which is returned *)
Definition atPos (g : list dim) (pos : list R) : option nat :=
  if negb (forallb (fun x => Rleb (d_min (fst x)) (snd x) && Rleb (snd x) (d_max (fst x))) (combine g pos)) then None
  else let i := flattenIndex g (calculateBinIndex g pos) in Some (if size g <=? i then size g - 1 else i).
(** Histogram.tpp:95-102 *)
Definition atIndex (g : list dim) (idx : list nat) : option nat :=
  if negb (forallb (fun x => snd x <? d_bins (fst x)) (combine g idx)) then None else Some (flattenIndex g idx).
(** Histogram.tpp:128-136: from the last dimension to the first one *)
Fixpoint reshape_back (g : list dim) (flat : nat) : list nat := match g with [] => [] | d :: g' => flat mod d_bins d :: reshape_back g' (flat / d_bins d) end.
Definition reshapeIndex (g : list dim) (flat : nat) : list nat := rev (reshape_back (rev g) flat).
(** Histogram.tpp:104-113 *)
Definition middle (g : list dim) (flat : nat) : list R := map (fun x => d_min (fst x) + (INR (snd x) + / 2) * step (fst x))%R (combine g (reshapeIndex g flat)).
(** Histogram.tpp:138-150 *)
Definition getBinDividers (d : dim) : list R :=
  let n := INR (d_bins d) in map (fun i => d_min d * ((n - INR i) / n) + d_max d * (INR i / n))%R (seq 0 (d_bins d + 1)).
(** Histogram.tpp:22-29, Histogram.h:33-37 *)
Definition vc_add (a b : ValueCount) : ValueCount := ((fst a + fst b)%R, snd a + snd b).
Definition hist_add (h other : list ValueCount) : list ValueCount := map (fun x => vc_add (fst x) (snd x)) (combine h other).
(** Histogram.tpp:46-49 *)
Definition hist_clear (initial : R) (h : list ValueCount) : list ValueCount := map (fun _ => (initial, 0)) h.
(** bins[k].value += value; bins[k].count++ *)
Fixpoint bump (k : nat) (value : R) (h : list ValueCount) : list ValueCount :=
  match h with [] => [] | b :: h' => match k with O => ((fst b + value)%R, snd b + 1) :: h' | S k' => b :: bump k' value h' end end.

(** HistogramBuilder.h:35-43 *)
Record builder := Builder { hb_total : list ValueCount; hb_current : list (list ValueCount); hb_snapshots : nat }.
(** HistogramBuilder.tpp:79-98 *)
Definition build (g : list dim) (threads : nat) (initial : R) : option builder :=
  match create g initial with None => None | Some h => Some (Builder h (repeat h threads) 0) end.
Fixpoint update {A} (k : nat) (f : A -> A) (l : list A) : list A := match l with [] => [] | a :: l' => match k with O => f a :: l' | S k' => a :: update k' f l' end end.
(** HistogramBuilder.tpp:14-22, by the thread [thread] *)
Definition add (g : list dim) (thread : nat) (pos : list R) (value : R) (b : builder) : option builder :=
  if negb (thread <? length (hb_current b)) then None
  else match atPos g pos with None => None | Some k => Some (Builder (hb_total b) (update thread (bump k value) (hb_current b)) (hb_snapshots b)) end.
(** HistogramBuilder.tpp:24-31 *)
Definition nextSnapshot (initial : R) (b : builder) : builder :=
  Builder (fold_left hist_add (hb_current b) (hb_total b)) (map (hist_clear initial) (hb_current b)) (hb_snapshots b + 1).
(** HistogramBuilder.tpp:33-39 *)
Definition clear (initial : R) (b : builder) : builder := Builder (hist_clear initial (hb_total b)) (map (hist_clear initial) (hb_current b)) 0.
(** HistogramBuilder.tpp:47-77; values: [None] is what division by zero gives *)
Inductive method := SUM | AVERAGE.
Definition dumpHistogram (initial : R) (m : method) (b : builder) : list (option R * nat) :=
  if hb_snapshots b =? 0 then map (fun _ => (Some initial, 0)) (hb_total b)
  else map (fun v => match m with
    | SUM => (Some (fst v / INR (hb_snapshots b))%R, snd v)
    | AVERAGE => (if snd v =? 0 then None else Some (fst v / INR (snd v))%R, snd v) end) (hb_total b).
