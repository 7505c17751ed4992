(** [src/frontend/PackingLoader.cpp], [PackingLoader.h] and the part of [src/frontend/modes/CasinoMode.cpp] which performs the runs and stores
    their last snapshots: what --start-from and --continue do.

    Numbers of cycles are std::size_t. Messages of the logger are not modelled. The file system is a function from names of files to their
    texts. *)
From Coq Require Import ZArith List Bool.
From Verif Require Import OptModel TextModel RamsnapModel.
Import ListNotations.
Open Scope Z_scope.

(** RampackParameters.h:37-74: parameters which matter here; [None] as the kind of a run: overlap relaxation. *)
Record cycles_plan := Cycles { cy_thermalization : option Z; cy_averaging : option Z; cy_snapshotEvery : Z; cy_averagingEvery : Z }.
Record run := Run { run_name : text; run_cycles : option cycles_plan; run_out : option text }.
(** PackingLoader.h:19-29 *)
Record performed := Performed { pd_expected : Z; pd_performed : bool; pd_corrupted : bool; pd_done : Z }.
Definition isFinished (d : performed) : bool := pd_performed d && negb (pd_corrupted d) && (pd_expected d <=? pd_done d).

(** Exceptions which are thrown; the only difference between them is the message. *)
Inductive refusal := NoOutput | Broken | CorruptedRun | PerformedAfterUnfinished | NoSuchRun | NoFile | BadPacking.
(** The value, an exception or undefined behaviour. *)
Inductive outcome (A : Type) := Done (a : A) | Refused (why : refusal) | Undefined.
Arguments Done {A}. Arguments Refused {A}. Arguments Undefined {A}.
Definition bind {A B} (o : outcome A) (f : A -> outcome B) : outcome B :=
  match o with Done a => f a | Refused w => Refused w | Undefined => Undefined end.

Definition cycles_key : text := [99; 121; 99; 108; 101; 115].
Definition auto_name : text := [46; 97; 117; 116; 111].
Definition first_name : text := [46; 102; 105; 114; 115; 116].
Definition last_name : text := [46; 108; 97; 115; 116].
(** std::map::find *)
Definition map_find {A} (k : text) (m : list (text * A)) : option A := option_map snd (find (fun e => text_eqb (fst e) k) m).
(** std::stoul, which ignores what follows the number *)
Definition stoul (s : text) : option Z := option_map fst (extract_size s).
Definition value_or0 (o : option Z) : Z := match o with Some n => n | None => 0 end.
Definition wrap (n : Z) : Z := n mod 2 ^ 64.

(** PackingLoader.cpp:161-166 *)
Definition expectedCycles (r : run) : Z :=
  match run_cycles r with Some c => wrap (value_or0 (cy_thermalization c) + value_or0 (cy_averaging c)) | None => 0 end.

Section loader.
Variables (D : Type) (show : D -> text) (scan : text -> option (D * text)) (zero : D) (hasVolume : list D -> bool).
(** Preconditions of Packing::reset (Packing.cpp:68-71), see PackModel. *)
Variable (accepts : list D -> list (list D * list D) -> bool).
Definition packing := (list D * list (list D * list D))%type.
Definition fs := text -> option text.

(** PackingLoader.cpp:155-188, for one run; a file which is not a RAMSNAP file or has no 'cycles' throws ValidationException, which is not a
    std::logic_error, hence only what std::stoul throws makes the run corrupted. *)
Definition runData (files : fs) (r : run) : outcome performed :=
  match run_out r with
  | None => Undefined
  | Some name =>
    match files name with
    | None => Done (Performed (expectedCycles r) false false 0)
    | Some content =>
      match restoreAuxInfo content with
      | None => Refused Broken
      | Some (m, _) =>
        match map_find cycles_key m with
        | None => Refused Broken
        | Some v => match stoul v with
                    | Some n => Done (Performed (expectedCycles r) true false n)
                    | None => Done (Performed (expectedCycles r) true true 0)
                    end
        end
      end
    end
  end.
Fixpoint gatherRunData (files : fs) (runs : list run) : outcome (list performed) :=
  match runs with
  | [] => Done []
  | r :: runs' => bind (runData files r) (fun d => bind (gatherRunData files runs') (fun ds => Done (d :: ds)))
  end.
(** std::find_if; the size of the list when there is none *)
Fixpoint find_index {A} (f : A -> bool) (l : list A) : nat :=
  match l with [] => O | x :: l' => if f x then O else S (find_index f l') end.

(** What autoFindStartRunIndex and findStartRunIndex set. *)
Record found := Found { fd_index : nat; fd_continuation : option Z; fd_finished : bool }.
(** PackingLoader.cpp:130-136 *)
Definition allRunsHaveDatOutput (runs : list run) : bool := forallb (fun r => match run_out r with Some _ => true | None => false end) runs.
(** PackingLoader.cpp:76-118; PackingLoader.cpp:138-142 for no runs: the end of the range is dereferenced *)
Definition autoFindStartRunIndex (files : fs) (runs : list run) : outcome found :=
  if negb (allRunsHaveDatOutput runs) then Refused NoOutput else
  bind (gatherRunData files runs) (fun datas =>
  match datas with
  | [] => Undefined
  | _ =>
    if existsb pd_corrupted datas then Refused CorruptedRun else
    let i := find_index (fun d => negb (isFinished d)) datas in
    match nth_error datas i with
    | None => Done (Found (length datas) None true)
    | Some d =>
      if existsb pd_performed (skipn (S i) datas) then Refused PerformedAfterUnfinished
      else Done (Found i (if pd_done d =? 0 then None else Some 0) false)
    end
  end).
(** PackingLoader.cpp:191-208; the index of the last of no runs is 2^64 - 1, and elements are then read beyond the end *)
Definition findRunIndex (name : text) (runs : list run) : outcome nat :=
  if text_eqb name first_name then Done O
  else if text_eqb name last_name then match runs with [] => Undefined | _ => Done (length runs - 1)%nat end
  else let i := find_index (fun r => text_eqb (run_name r) name) runs in
       if Nat.ltb i (length runs) then Done i else Refused NoSuchRun.
(** PackingLoader.cpp:53-65 *)
Definition findStartRunIndex (files : fs) (startFrom : option text) (continuation : option Z) (runs : list run) : outcome found :=
  match startFrom with
  | None => Done (Found O continuation false)
  | Some name => if text_eqb name auto_name then autoFindStartRunIndex files runs
                 else bind (findRunIndex name runs) (fun i => Done (Found i continuation false))
  end.

(** PackingLoader.h:36-42: the state of the loader; [ld_packing]: the packing with metadata, if isRestored. *)
Record loaded := Loaded {
  ld_start : nat; ld_offset : Z; ld_continuation : bool; ld_packing : option (list (text * text) * packing); ld_finished : bool; ld_runs : list run }.
(** RamsnapReader.cpp:15-23 *)
Definition restore (content : text) : option (list (text * text) * packing) :=
  match read D scan zero hasVolume content with
  | Some (m, box, shapes) => if accepts box shapes then Some (m, (box, shapes)) else None
  | None => None
  end.
(** PackingLoader.cpp:34-51; a run without RAMSNAP output: std::nullopt is dereferenced *)
Definition restorePacking (files : fs) (r : run) : outcome (list (text * text) * packing) :=
  match run_out r with
  | None => Undefined
  | Some name => match files name with
                 | None => Refused NoFile
                 | Some content => match restore content with Some p => Done p | None => Refused BadPacking end
                 end
  end.
Definition set_thermalization (r : run) (n : option Z) : run :=
  match run_cycles r with
  | Some c => Run (run_name r) (Some (Cycles n (cy_averaging c) (cy_snapshotEvery c) (cy_averagingEvery c))) (run_out r)
  | None => r
  end.
Definition replace_nth {A} (i : nat) (x : A) (l : list A) : list A := firstn i l ++ match skipn i l with [] => [] | _ :: l' => x :: l' end.
(** PackingLoader.cpp:210-258; std::map::at throws when there is no key *)
Definition loadPackingContinuation (files : fs) (continuation : Z) (i : nat) (runs : list run) : outcome loaded :=
  match nth_error runs i with
  | None => Undefined
  | Some r =>
    bind (restorePacking files r) (fun p =>
    match map_find cycles_key (fst p) with
    | None => Refused Broken
    | Some v => match stoul v with
      | None => Refused Broken
      | Some offset =>
        match run_cycles r with
        | None => Done (Loaded i offset true (Some p) false runs)
        | Some c =>
          let continuation := if continuation =? 0 then value_or0 (cy_thermalization c) else continuation in
          if continuation <=? offset then
            let runs' := replace_nth i (set_thermalization r None) runs in
            if 0 <? value_or0 (cy_averaging c) then Done (Loaded i offset true (Some p) false runs')
            else Done (Loaded (S i) 0 false (Some p) (Nat.eqb (S i) (length runs)) runs')
          else Done (Loaded i offset true (Some p) false (replace_nth i (set_thermalization r (Some (continuation - offset))) runs))
        end
      end
    end)
  end.
(** PackingLoader.cpp:260-265 *)
Definition loadPackingNoContinuation (files : fs) (i : nat) (runs : list run) : outcome loaded :=
  match nth_error runs (i - 1) with
  | None => Undefined
  | Some r => bind (restorePacking files r) (fun p => Done (Loaded i 0 false (Some p) false runs))
  end.
(** PackingLoader.cpp:12-32 *)
Definition loadPacking (files : fs) (startFrom : option text) (continuation : option Z) (runs : list run) : outcome loaded :=
  bind (findStartRunIndex files startFrom continuation runs) (fun f =>
  if fd_finished f then Done (Loaded (fd_index f) 0 false None true runs) else
  let scratch := (match startFrom with None => true | Some _ => Nat.eqb (fd_index f) 0 end) && match fd_continuation f with None => true | Some _ => false end in
  if scratch then Done (Loaded (fd_index f) 0 false None false runs) else
  match fd_continuation f with
  | Some n => loadPackingContinuation files n (fd_index f) runs
  | None => loadPackingNoContinuation files (fd_index f) runs
  end).

(** Simulation.cpp:102-107: preconditions of an integration which depend on numbers of cycles *)
Definition integrates (c : cycles_plan) : bool :=
  let t := value_or0 (cy_thermalization c) in let a := value_or0 (cy_averaging c) in
  ((0 <? t) || (0 <? a)) && (negb (0 <? a) || ((0 <? cy_averagingEvery c) && (cy_averagingEvery c <=? a))) && (cy_snapshotEvery c <=? wrap (t + a)).
(** How a run ends, chosen by the environment: after all cycles, or by a signal after [ev_cycles] of them; an overlap relaxation ends after
    [ev_cycles] cycles in both cases. The metadata other than the number of cycles (step sizes) and the last packing are arbitrary. *)
Record event := Event { ev_interrupted : bool; ev_cycles : Z; ev_aux : list (text * text); ev_packing : packing }.
(** FileSnapshotWriter.cpp:13-20 and 50-66: storing the last snapshot of a run; [None]: failed precondition. All files can be opened. *)
Definition storeSnapshot (files : fs) (r : run) (total : Z) (e : event) : option fs :=
  match run_out r with
  | None => Some files
  | Some name =>
    content <- write D show (map_set cycles_key (decimal total) (ev_aux e)) (fst (ev_packing e)) (snd (ev_packing e)) ;;
    Some (fun n => if text_eqb n name then Some content else files n)
  end.
(** CasinoMode.cpp:171-196, 247-249 and 299-305, Simulation.cpp:118-198: files after runs [runs], the first with [offset] cycles already made,
    are performed. No event: the program is killed before the run ends. A failed precondition: the program ends with an exception. *)
Fixpoint performRuns (files : fs) (offset : Z) (runs : list run) (events : list event) : fs :=
  match runs, events with
  | r :: runs', e :: events' =>
    let performed :=
      match run_cycles r with
      | Some c => if integrates c then
                    let all := value_or0 (cy_thermalization c) + value_or0 (cy_averaging c) in
                    Some (wrap (offset + (if ev_interrupted e then Z.min (ev_cycles e) all else all)))
                  else None
      | None => Some (wrap (offset + ev_cycles e))
      end in
    match performed with
    | None => files
    | Some total => match storeSnapshot files r total e with
                    | None => files
                    | Some files' => if ev_interrupted e then files' else performRuns files' 0 runs' events'
                    end
    end
  | _, _ => files
  end.
(** CasinoMode.cpp:155-198: the program is started with --start-from [startFrom]; files after it ends. *)
Definition invoke (files : fs) (startFrom : option text) (continuation : option Z) (runs : list run) (events : list event) : fs :=
  match loadPacking files startFrom continuation runs with
  | Done l => if ld_finished l then files else performRuns files (ld_offset l) (skipn (ld_start l) (ld_runs l)) events
  | _ => files
  end.
End loader.
