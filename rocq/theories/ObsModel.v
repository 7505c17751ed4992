(** [src/core/ObservablesCollector.cpp].

    [D] are values of interval observables, [show] prints them with max_digits10 digits and [show_short] with the default precision. [P] is what
    observables are calculated on (packing, shape traits, temperature and pressure). An observable is given by its headers and by the values
    which [calculate] leaves in it. Bulk observables and computation times are not modelled. The on-the-fly output is a text, always written at
    its end; writing to it is assumed to succeed. *)
From Coq Require Import ZArith List Bool.
From Verif Require Import OptModel TextModel LinesModel.
Import ListNotations.
Open Scope Z_scope.

Section obs.
Variables (D P : Type) (show show_short : D -> list Z).

(** Observable.h: getName, getIntervalHeader, getNominalHeader, getIntervalValues, getNominalValues *)
Record observable := Observable {
  ob_name : list Z; ob_interval : list (list Z); ob_nominal : list (list Z);
  ob_intervals : P -> list D; ob_nominals : P -> list (list Z) }.
(** ObservablesCollector.h: enum ObservableType, the bits SNAPSHOT, INLINE and AVERAGING *)
Record kind := Kind { k_snapshot : bool; k_inline : bool; k_averaging : bool }.
(** ObservablesCollector.h: the fields of the class *)
Record collector := Collector {
  co_obs : list observable; co_snapshot : list nat; co_inline : list nat; co_averaging : list nat;
  co_snapshotHeader : list (list Z); co_averagingHeader : list (list Z);
  co_cycles : list Z; co_snapshotValues : list (list (list Z)); co_averagingValues : list (list D);
  co_out : option (list Z); co_last : Z }.
Definition no_collector : collector := Collector [] [] [] [] [] [] [] [] [] None 0.

(** std::vector::resize of a vector of vectors *)
Definition resize {A} (n : nat) (l : list (list A)) : list (list A) := firstn n l ++ repeat [] (n - length l).
Definition is_nil {A} (l : list A) : bool := match l with [] => true | _ => false end.
(** ObservablesCollector.cpp:15-18: the first set, if there is one, is empty *)
Definition front_empty {A} (l : list (list A)) : bool := match l with [] => true | x :: _ => is_nil x end.

(** ObservablesCollector.cpp:14-41; [None]: values have been captured already *)
Definition addObservable (o : observable) (k : kind) (c : collector) : option collector :=
  if front_empty (co_snapshotValues c) && front_empty (co_averagingValues c) then
    let idx := length (co_obs c) in
    let sh := co_snapshotHeader c ++ ob_interval o ++ ob_nominal o in
    let ah := co_averagingHeader c ++ ob_interval o in
    Some (Collector (co_obs c ++ [o])
      (if k_snapshot k then co_snapshot c ++ [idx] else co_snapshot c)
      (if k_inline k then co_inline c ++ [idx] else co_inline c)
      (if k_averaging k then co_averaging c ++ [idx] else co_averaging c)
      (if k_snapshot k then sh else co_snapshotHeader c)
      (if k_averaging k then ah else co_averagingHeader c)
      (co_cycles c)
      (if k_snapshot k then resize (length sh) (co_snapshotValues c) else co_snapshotValues c)
      (if k_averaging k then resize (length ah) (co_averagingValues c) else co_averagingValues c)
      (co_out c) (co_last c))
  else None.

(** values[index].push_back(value); [None]: failed assertion index < values.size() *)
Fixpoint push_at {A} (i : nat) (v : A) (cols : list (list A)) : option (list (list A)) :=
  match cols, i with
  | [], _ => None
  | x :: r, O => Some ((x ++ [v]) :: r)
  | x :: r, S i' => r' <- push_at i' v r ;; Some (x :: r')
  end.
(** ObservablesCollector.cpp:58-71 and 92-97: values one after another, starting with the column [i]; the next column *)
Fixpoint push_values {A} (i : nat) (vs : list A) (cols : list (list A)) : option (nat * list (list A)) :=
  match vs with
  | [] => Some (i, cols)
  | v :: vs' => cols' <- push_at i v cols ;; push_values (S i) vs' cols'
  end.
(** The loops of lines 53-72 and 88-98 *)
Fixpoint push_observables {A} (value : observable -> list A) (obs : list observable) (idxs : list nat) (i : nat) (cols : list (list A)) :
  option (nat * list (list A)) :=
  match idxs with
  | [] => Some (i, cols)
  | j :: idxs' => o <- nth_error obs j ;; (r <- push_values i (value o) cols ;; push_observables value obs idxs' (fst r) (snd r))
  end.
(** ObservablesCollector.cpp:47-83: the values of one observable *)
Definition snapshot_cells (p : P) (o : observable) : list (list Z) := map show (ob_intervals o p) ++ ob_nominals o p.

(** The element [i] of each column *)
Fixpoint row_values (i : nat) (cols : list (list (list Z))) : option (list Z) :=
  match cols with
  | [] => Some []
  | x :: r => v <- nth_error x i ;; (r' <- row_values i r ;; Some (v ++ space :: r'))
  end.
(** ObservablesCollector.cpp:196-202 *)
Definition doPrintSnapshotValues (c : collector) (i : nat) : option (list Z) :=
  n <- nth_error (co_cycles c) i ;; (r <- row_values i (co_snapshotValues c) ;; Some (decimal n ++ space :: r ++ [newline])).
(** ObservablesCollector.cpp:204-209, without the line feed: "cycle " and the names, with a space after each *)
Definition header_text (c : collector) : list Z := [99; 121; 99; 108; 101; 32] ++ flat_map (fun h => h ++ [space]) (co_snapshotHeader c).

(** ObservablesCollector.cpp:47-83; [None]: failed assertion *)
Definition addSnapshot (p : P) (cycle : Z) (c : collector) : option collector :=
  r <- push_observables (snapshot_cells p) (co_obs c) (co_snapshot c) 0 (co_snapshotValues c) ;;
  if Nat.eqb (fst r) (length (co_snapshotValues c)) then
    let c1 := Collector (co_obs c) (co_snapshot c) (co_inline c) (co_averaging c) (co_snapshotHeader c) (co_averagingHeader c)
      (co_cycles c ++ [cycle]) (snd r) (co_averagingValues c) (co_out c) (co_last c) in
    match co_out c with
    | None => Some c1
    | Some content =>
      row <- doPrintSnapshotValues c1 (length (co_cycles c1) - 1) ;;
      Some (Collector (co_obs c) (co_snapshot c) (co_inline c) (co_averaging c) (co_snapshotHeader c) (co_averagingHeader c)
        (co_cycles c1) (snd r) (co_averagingValues c) (Some (content ++ row)) cycle)
    end
  else None.
(** ObservablesCollector.cpp:85-107 *)
Definition addAveragingValues (p : P) (c : collector) : option collector :=
  r <- push_observables (fun o => ob_intervals o p) (co_obs c) (co_averaging c) 0 (co_averagingValues c) ;;
  if Nat.eqb (fst r) (length (co_averagingValues c)) then
    Some (Collector (co_obs c) (co_snapshot c) (co_inline c) (co_averaging c) (co_snapshotHeader c) (co_averagingHeader c)
      (co_cycles c) (co_snapshotValues c) (snd r) (co_out c) (co_last c))
  else None.
(** ObservablesCollector.cpp:170-179 *)
Definition clear (c : collector) : collector :=
  Collector (co_obs c) (co_snapshot c) (co_inline c) (co_averaging c) (co_snapshotHeader c) (co_averagingHeader c)
    [] (map (fun _ => []) (co_snapshotValues c)) (map (fun _ => []) (co_averagingValues c)) (co_out c) (co_last c).

(** ObservablesCollector.cpp:181-194; rows from [i] on *)
Fixpoint print_rows (c : collector) (i n : nat) : option (list Z) :=
  match n with
  | O => Some []
  | S n' => r <- doPrintSnapshotValues c i ;; (rs <- print_rows c (S i) n' ;; Some (r ++ rs))
  end.
Definition printSnapshots (c : collector) (header : bool) : option (list Z) :=
  if negb (is_nil (co_snapshotValues c)) && forallb (fun x => Nat.eqb (length x) (length (co_cycles c))) (co_snapshotValues c) then
    rs <- print_rows c 0 (length (co_cycles c)) ;; Some ((if header then header_text c ++ [newline] else []) ++ rs)
  else None.

(** ObservablesCollector.cpp:211-218: the names with the samples given to Quantity::calculateFromSamples; [None]: index out of range *)
Fixpoint flat_samples (header : list (list Z)) (cols : list (list D)) : option (list (list Z * list D)) :=
  match header, cols with
  | [], _ => Some []
  | h :: header', x :: cols' => r <- flat_samples header' cols' ;; Some ((h, x) :: r)
  | _ :: _, [] => None
  end.
Definition getFlattenedSamples (c : collector) : option (list (list Z * list D)) := flat_samples (co_averagingHeader c) (co_averagingValues c).
(** ObservablesCollector.cpp:220-240 *)
Fixpoint group_samples (obs : list observable) (idxs : list nat) (flat : list (list Z * list D)) (i : nat) :
  option (list (list Z * list (list Z * list D)) * nat) :=
  match idxs with
  | [] => Some ([], i)
  | j :: idxs' =>
    o <- nth_error obs j ;;
    let n := length (ob_interval o) in
    if Nat.leb (i + n) (length flat) then
      r <- group_samples obs idxs' flat (i + n) ;; Some ((ob_name o, firstn n (skipn i flat)) :: fst r, snd r)
    else None
  end.
Definition getGroupedSamples (c : collector) : option (list (list Z * list (list Z * list D))) :=
  flat <- getFlattenedSamples c ;;
  (r <- group_samples (co_obs c) (co_averaging c) flat 0 ;; if Nat.eqb (snd r) (length flat) then Some (fst r) else None).

(** ", " and ": " *)
Definition comma : list Z := [44; 32].
Definition colon : list Z := [58; 32].
(** ObservablesCollector.cpp:144-158: items, each followed by a comma unless it is the last of [left] values *)
Fixpoint inline_items (left : nat) (hs vs : list (list Z)) : list Z * nat :=
  match hs, vs with
  | h :: hs', v :: vs' => let r := inline_items (left - 1) hs' vs' in (h ++ colon ++ v ++ (if Nat.ltb 1 left then comma else []) ++ fst r, snd r)
  | _, _ => ([], left)
  end.
(** ObservablesCollector.cpp:126-164; [None]: failed assertion *)
Definition printInlineObservable (o : observable) (p : P) : option (list Z) :=
  let total := (length (ob_interval o) + length (ob_nominal o))%nat in
  if Nat.ltb 0 total && Nat.eqb (length (ob_interval o)) (length (ob_intervals o p)) && Nat.eqb (length (ob_nominal o)) (length (ob_nominals o p)) then
    let a := inline_items total (ob_interval o) (map show_short (ob_intervals o p)) in
    let b := inline_items (snd a) (ob_nominal o) (ob_nominals o p) in
    if Nat.eqb (snd b) 0 then Some (fst a ++ fst b) else None
  else None.
(** ObservablesCollector.cpp:109-124 *)
Fixpoint inline_strings (obs : list observable) (idxs : list nat) (p : P) : option (list Z) :=
  match idxs with
  | [] => Some []
  | [j] => o <- nth_error obs j ;; printInlineObservable o p
  | j :: idxs' => o <- nth_error obs j ;; (s <- printInlineObservable o p ;; (r <- inline_strings obs idxs' p ;; Some (s ++ comma ++ r)))
  end.
Definition generateInlineObservablesString (c : collector) (p : P) : option (list Z) := inline_strings (co_obs c) (co_inline c) p.

(** ObservablesCollector.cpp:302-320: the last cycle number; [None]: a validation error *)
Definition findOnTheFlyLastCycleNumber (content : list Z) : option Z :=
  let r1 := getlineBackwards newline (seek_end content) in
  let r2 := getlineBackwards newline (fst r1) in
  if negb (sm_fail (fst r2)) && is_nil (snd r1) then
    if Nat.eqb (sm_pos (fst r2)) 0 then Some 0 else (r <- extract_size (snd r2) ;; Some (fst r))
  else None.
(** ObservablesCollector.cpp:262-300 with a stream of the given content *)
Definition attachOnTheFlyOutput (content : list Z) (c : collector) : option collector :=
  let set out last := Collector (co_obs c) (co_snapshot c) (co_inline c) (co_averaging c) (co_snapshotHeader c) (co_averagingHeader c)
      (co_cycles c) (co_snapshotValues c) (co_averagingValues c) (Some out) last in
  if is_nil content then Some (set (header_text c ++ [newline]) 0)
  else if text_eqb (fst (take_line newline content)) (header_text c) then
    n <- findOnTheFlyLastCycleNumber content ;; Some (set content n)
  else None.
(** ObservablesCollector.cpp:297-300: the stream given back *)
Definition detachOnTheFlyOutput (c : collector) : option (list Z) * collector :=
  (co_out c, Collector (co_obs c) (co_snapshot c) (co_inline c) (co_averaging c) (co_snapshotHeader c) (co_averagingHeader c)
      (co_cycles c) (co_snapshotValues c) (co_averagingValues c) None 0).
End obs.
