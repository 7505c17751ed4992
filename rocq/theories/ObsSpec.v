(** What observable tables hold. *)
From Coq Require Import ZArith List Bool.
From Verif Require Import OptModel TextModel ObsModel.
Import ListNotations.
Open Scope Z_scope.

Section spec.
Variables (D P : Type) (show show_short : D -> list Z).
Notation observable := (observable D P).

(** What happens to a collector after the observables have been added. *)
Inductive event := Snapshot (cycle : Z) (p : P) | Average (p : P) | Clear.
(** Snapshots and averaged states since the last clearing. *)
Fixpoint since {A} (take : event -> list A) (acc : list A) (es : list event) : list A :=
  match es with [] => acc | Clear :: es' => since take [] es' | e :: es' => since take (acc ++ take e) es' end.
Definition snapshots (es : list event) : list (Z * P) := since (fun e => match e with Snapshot c p => [(c, p)] | _ => [] end) [] es.
Definition averaged (es : list event) : list P := since (fun e => match e with Average p => [p] | _ => [] end) [] es.
(** All snapshots: clearing does not touch the output file. *)
Definition all_snapshots (es : list event) : list (Z * P) := flat_map (fun e => match e with Snapshot c p => [(c, p)] | _ => [] end) es.

(** The collector after observables have been added, and after events. *)
Fixpoint with_observables (os : list (observable * kind)) (c : collector D P) : option (collector D P) :=
  match os with [] => Some c | (o, k) :: os' => c' <- addObservable D P o k c ;; with_observables os' c' end.
Definition happen (e : event) (c : collector D P) : option (collector D P) :=
  match e with Snapshot cy p => addSnapshot D P show p cy c | Average p => addAveragingValues D P p c | Clear => Some (clear D P c) end.
Fixpoint after (es : list event) (c : collector D P) : option (collector D P) :=
  match es with [] => Some c | e :: es' => c' <- happen e c ;; after es' c' end.

(** Observables give as many values as there are names. *)
Definition regular (o : observable) : Prop := forall p, length (ob_intervals D P o p) = length (ob_interval D P o) /\ length (ob_nominals D P o p) = length (ob_nominal D P o).
Definition chosen (which : kind -> bool) (os : list (observable * kind)) : list observable := map fst (filter (fun ok => which (snd ok)) os).

(** A line of the table: cells, each with a space after it. *)
Definition line_of (cells : list (list Z)) : list Z := flat_map (fun t => t ++ [space]) cells ++ [newline].
(** "cycle" *)
Definition cycle_word : list Z := [99; 121; 99; 108; 101].
Definition names (os : list (observable * kind)) : list (list Z) := flat_map (fun o => ob_interval D P o ++ ob_nominal D P o) (chosen k_snapshot os).
Definition cells (os : list (observable * kind)) (p : P) : list (list Z) := flat_map (fun o => map show (ob_intervals D P o p) ++ ob_nominals D P o p) (chosen k_snapshot os).
Definition header_line (os : list (observable * kind)) : list Z := line_of (cycle_word :: names os).
Definition row_line (os : list (observable * kind)) (r : Z * P) : list Z := line_of (decimal (fst r) :: cells os (snd r)).

(** Values number [i] of an observable in the averaged states. *)
Definition samples_of (o : observable) (i : nat) (ps : list P) : list D :=
  flat_map (fun p => match nth_error (ob_intervals D P o p) i with Some v => [v] | None => [] end) ps.
Definition named_samples (o : observable) (ps : list P) : list (list Z * list D) :=
  map (fun ih => (snd ih, samples_of o (fst ih) ps)) (combine (seq 0 (length (ob_interval D P o))) (ob_interval D P o)).

(** "name: value", with ", " between them. *)
Fixpoint comma_joined (l : list (list Z)) : list Z := match l with [] => [] | [x] => x | x :: l' => x ++ [44; 32] ++ comma_joined l' end.
Definition labelled (hs vs : list (list Z)) : list (list Z) := map (fun hv => fst hv ++ [58; 32] ++ snd hv) (combine hs vs).
Definition inline_labels (o : observable) (p : P) : list (list Z) :=
  labelled (ob_interval D P o) (map show_short (ob_intervals D P o p)) ++ labelled (ob_nominal D P o) (ob_nominals D P o p).

(** The last element. *)
Definition last_cycle (rs : list (Z * P)) (n : Z) : Z := match rev rs with [] => n | r :: _ => fst r end.
(** Cells and names are single lines. *)
Definition one_line (t : list Z) : Prop := Forall (fun c => c <> newline) t.
Definition clean_observables (os : list (observable * kind)) : Prop := Forall one_line (names os) /\ forall p, Forall one_line (cells os p).
Definition clean_cycles (rs : list (Z * P)) : Prop := Forall (fun r => 0 <= fst r < 2 ^ 64) rs.
(** A file left by earlier runs. *)
Definition table (os : list (observable * kind)) (rs : list (Z * P)) : list Z := header_line os ++ flat_map (row_line os) rs.
(** One run of the program: observables are added, a file is attached, things happen, the file is closed; what is left in the file, and
    the last cycle numbers reported after attaching and before closing. *)
Definition session (os : list (observable * kind)) (es : list event) (file : list Z) : option (list Z * Z * Z) :=
  c <- with_observables os (no_collector D P) ;; (c1 <- attachOnTheFlyOutput D P file c ;; (c2 <- after es c1 ;;
    match detachOnTheFlyOutput D P c2 with (Some t, _) => Some (t, co_last D P c1, co_last D P c2) | _ => None end)).
(** Runs one after another; the file at the end. *)
Fixpoint sessions (os : list (observable * kind)) (runs : list (list event)) (file : list Z) : option (list Z) :=
  match runs with [] => Some file | es :: runs' => r <- session os es file ;; sessions os runs' (fst (fst r)) end.
End spec.
