(** What the automatic detection of the starting run should do. *)
From Coq Require Import ZArith List Bool.
From Verif Require Import OptModel TextModel RamsnapModel RamsnapSpec LoadModel.
Import ListNotations.
Open Scope Z_scope.

(** The file of the last snapshot of a run: missing, or with a number of cycles in the metadata, or neither. *)
Definition not_performed (files : text -> option text) (r : run) : Prop := exists name, run_out r = Some name /\ files name = None.
Definition performed_cycles (files : text -> option text) (r : run) (n : Z) : Prop := exists name content m rest v tail,
  run_out r = Some name /\ files name = Some content /\ restoreAuxInfo content = Some (m, rest) /\ In (cycles_key, v) m /\ extract_size v = Some (n, tail).
Definition unreadable (files : text -> option text) (r : run) : Prop := exists name content, run_out r = Some name /\ files name = Some content /\
  forall n, ~ performed_cycles files r n.
(** Cycles of the whole run: thermalisation and averaging. *)
Definition thermalisation (r : run) : Z := match run_cycles r with Some c => value_or0 (cy_thermalization c) | None => 0 end.
Definition averaging (r : run) : Z := match run_cycles r with Some c => value_or0 (cy_averaging c) | None => 0 end.
Definition finished (files : text -> option text) (r : run) : Prop := exists n, performed_cycles files r n /\ thermalisation r + averaging r <= n.
(** Numbers of cycles are sizes and so are their sums; thermalisation and averaging, if given, take some cycles; at least one is given. *)
Definition proper_run (r : run) : Prop :=
  (exists name, run_out r = Some name) /\ 0 <= thermalisation r /\ 0 <= averaging r /\ thermalisation r + 2 * averaging r < 2 ^ 64 /\
  (run_cycles r <> None -> 0 < thermalisation r + averaging r).
(** Run [i] is the first one not finished. *)
Definition first_unfinished (files : text -> option text) (runs : list run) (i : nat) (r : run) : Prop :=
  nth_error runs i = Some r /\ ~ finished files r /\ forall j q, (j < i)%nat -> nth_error runs j = Some q -> finished files q.
(** The packing and metadata in the file of a run. *)
Definition stored {D} scan zero hasVolume accepts (files : text -> option text) (r : run) (p : list (text * text) * (list D * list (list D * list D))) : Prop :=
  exists name content, run_out r = Some name /\ files name = Some content /\
  read D scan zero hasVolume content = Some (fst p, fst (snd p), snd (snd p)) /\ accepts (fst (snd p)) (snd (snd p)) = true.
(** The same run with other thermalisation cycles. *)
Definition with_thermalisation (t : Z) (r r' : run) : Prop :=
  thermalisation r' = t /\ averaging r' = averaging r /\ run_name r' = run_name r /\ run_out r' = run_out r /\
  match run_cycles r, run_cycles r' with
  | Some c, Some c' => cy_averaging c' = cy_averaging c /\ cy_snapshotEvery c' = cy_snapshotEvery c /\ cy_averagingEvery c' = cy_averagingEvery c
  | None, None => True
  | _, _ => False
  end.

(** Not one of .auto, .first, .last *)
Definition plain (name : text) : Prop := name <> auto_name /\ name <> first_name /\ name <> last_name.

(** Histories: the program is started with .auto any number of times, each time on files left by the previous one. *)
Definition proper_event {D} (hasVolume : list D -> bool) accepts (e : event D) : Prop :=
  0 <= ev_cycles _ e < 2 ^ 64 /\ (forall n, 0 <= n -> clean_map (map_set cycles_key (decimal n) (ev_aux _ e))) /\
  clean_packing (fst (ev_packing _ e)) (snd (ev_packing _ e)) /\ hasVolume (fst (ev_packing _ e)) = true /\
  accepts (fst (ev_packing _ e)) (snd (ev_packing _ e)) = true.
Inductive history {D} show scan zero hasVolume accepts (runs : list run) : (text -> option text) -> Prop :=
| no_history files : (forall r, In r runs -> not_performed files r) -> history show scan zero hasVolume accepts runs files
| one_more files events : history show scan zero hasVolume accepts runs files -> Forall (@proper_event D hasVolume accepts) events ->
    history show scan zero hasVolume accepts runs (invoke D show scan zero hasVolume accepts files (Some auto_name) None runs events).
