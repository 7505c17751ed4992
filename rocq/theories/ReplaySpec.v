(** What the trajectory mode should give, in terms of the recorded snapshots only. *)
From Coq Require Import ZArith List Bool.
From Verif Require Import TextModel LoadModel SimModel TrjModel TrjSpec DynModel ReplayModel.
Import ListNotations.
Open Scope Z_scope.

(** Snapshots which remain after truncation to [n] cycles. *)
Definition kept (n : option Z) (step : Z) (ss : list snapshot) : list snapshot :=
  match n with None => ss | Some n => firstn (Z.to_nat (n / step)) ss end.
Definition cycles_of (step : Z) (ss : list snapshot) : Z := Z.of_nat (length ss) * step.
Definition is_nil {A} (l : list A) : bool := match l with [] => true | _ => false end.

Section mode.
Context {Par Smp Scl V : Type}.
Variables (value : Par -> Z -> Z -> option V) (zero : V).
Notation env := (@environment Par Smp Scl).
Notation output := (@output V).

(** The temperature and the pressure (zero if the box is not scaled) at a cycle. *)
Definition state_at (e : env) (cycle total : Z) (t p : V) : Prop :=
  (exists x, ev_temperature e = Some x /\ value x cycle total = Some t) /\
  match ev_scaler e with
  | ScalerSet _ => exists x, ev_pressure e = Some x /\ value x cycle total = Some p
  | _ => p = zero
  end.
(** Rows of observables for the snapshots [fs] with their cycles. *)
Definition rows_of (e : env) (total : Z) (fs : list (snapshot * Z)) (rows : list (snapshot * Z * (V * V))) : Prop :=
  Forall2 (fun f r => fst r = f /\ state_at e (snd f) total (fst (snd r)) (snd (snd r))) fs rows.

(** Options are processed in stages: each makes outputs or ends the program. *)
Definition stage : Type := ending + list output.
Fixpoint until (l : list stage) : list output * ending :=
  match l with
  | [] => ([], Success)
  | inl e :: _ => ([], e)
  | inr out :: l' => (out ++ fst (until l'), snd (until l'))
  end.
Section stages.
Variables (step : Z) (ss : list snapshot) (e : env) (input : text) (o : @options).
Let left_ := kept (op_truncate o) step ss.
Let frames := numbered step 0 left_.
Definition truncation : stage :=
  match op_truncate o with
  | None => inr []
  | Some n => if (n <=? cycles_of step ss) && (n mod step =? 0) then inr [] else inl Rejected
  end.
(** [cs]: the commands which record the remaining snapshots *)
Definition trajectory_stage (cs : list io) (out : format * text) : stage :=
  if text_eqb (snd out) input then inl Rejected
  else inr [match fst out with Ramtrj => RamtrjFile (snd out) cs | Xyz => XyzFile (snd out) frames end].
(** [rows]: the rows of observables, if there are values of thermodynamic parameters for all snapshots *)
Definition observables_stage (rows : option (list (snapshot * Z * (V * V)))) : list stage :=
  match op_observables o with
  | None => []
  | Some (name, obs) =>
    [if is_nil obs then inl Rejected else match rows with Some r => inr [ObservablesFile name r] | None => inl Violated end]
  end.
(** Averaging over the snapshots from the given cycle on. *)
Definition bulk_stage : list stage :=
  match op_bulk o with
  | None => []
  | Some (pattern, obs) =>
    match op_averagingStart o with
    | None => [inl Rejected]
    | Some a =>
      [if is_nil obs || (cycles_of step left_ <=? a) || (a <? step) then inl Rejected
       else inr (map (fun name => BulkFile (bulkName pattern name) name (map fst (filter (fun f => a <=? snd f) frames))) obs)]
    end
  end.
Definition snapshot_stage : list stage :=
  match op_snapshots o with
  | [] => []
  | names =>
    match rev frames with
    | [] => [inl Violated]
    | final :: _ => map (fun name => if text_eqb name input then inl Rejected else inr [SnapshotFile name final]) names
    end
  end.
Definition stages (cs : list io) (rows : option (list (snapshot * Z * (V * V)))) : list stage :=
  truncation :: map (trajectory_stage cs) (op_trajectories o) ++ observables_stage rows ++ bulk_stage ++ snapshot_stage.
(** The outcome of the mode for the given trajectory of shapes. *)
Definition expected (n : Z) (result : list output * ending) : Prop :=
  if match truncation with inl _ => true | _ => false end then result = ([], Rejected)
  else exists cs rows,
    trajectory n step left_ (fl_bytes (perform cs (File [] 0))) /\
    match rows with
    | Some r => rows_of e (cycles_of step left_) frames r
    | None => exists f, In f frames /\ forall t p, ~ state_at e (snd f) (cycles_of step left_) t p
    end /\
    result = until (stages cs rows).
End stages.

(** The name of the file of an output. *)
Definition output_name (x : output) : text :=
  match x with RamtrjFile n _ | XyzFile n _ | ObservablesFile n _ | BulkFile n _ _ | SnapshotFile n _ => n end.

(** The run a name stands for, with its index. *)
Definition chosen (name : text) (runs : list (@trun Par Smp Scl)) (i : nat) (r : @trun Par Smp Scl) : Prop :=
  nth_error runs i = Some r /\
  (if text_eqb name first_name then i = O
   else if text_eqb name last_name then S i = length runs
   else run_name (tr_run r) = name /\ forall j r', (j < i)%nat -> nth_error runs j = Some r' -> run_name (tr_run r') <> name).
(** The name of the run: it can be left out if there is only one run. *)
Definition named (o : options) (runs : list (@trun Par Smp Scl)) (name : text) : Prop :=
  match op_run o with Some n => n = name /\ name <> auto_name | None => name = last_name /\ (length runs <= 1)%nat end.
(** Parameters of the run: for each of them, those of the last run up to it in which it is set, or of the base environment. *)
Definition latest {A} (get : env -> option A) (base : env) (envs : list env) (x : option A) : Prop :=
  (exists a b e, envs = a ++ e :: b /\ get e <> None /\ x = get e /\ Forall (fun e' => get e' = None) b) \/
  (Forall (fun e' => get e' = None) envs /\ x = get base).
Definition has_scaler (e : env) : option (@scaler_status Scl) := match ev_scaler e with ScalerUnset => None | s => Some s end.
Definition in_force (base : env) (envs : list env) (e : env) : Prop :=
  latest ev_temperature base envs (ev_temperature e) /\ latest ev_pressure base envs (ev_pressure e) /\
  latest has_scaler base envs (has_scaler e).
End mode.

(** The patterns of names of bulk files: every {} is replaced, and one is added if there is none. *)
Definition no_braces (t : text) : Prop := forall a b, t <> a ++ [123; 125] ++ b.
Fixpoint interleave (pieces : list text) (name : text) : text :=
  match pieces with [] => [] | [p] => p | p :: rest => p ++ name ++ interleave rest name end.
Definition bulk_name (pattern name result : text) : Prop :=
  (no_braces pattern /\ result = pattern ++ [95] ++ name ++ [46; 116; 120; 116]) \/
  (exists pieces, (2 <= length pieces)%nat /\ Forall no_braces pieces /\ pattern = interleave pieces [123; 125] /\ result = interleave pieces name).

(** Something is asked for. *)
Definition asks (o : options) : Prop :=
  op_info o = true \/ op_observables o <> None \/ op_bulk o <> None \/ op_snapshots o <> [] \/ op_trajectories o <> [].
(** The number of cycles given to -x is a 64-bit number. *)
Definition legal_options (o : options) : Prop := match op_truncate o with Some x => is_word64 x | None => True end.

(** Outputs which are never stored under the given name. *)
Definition spares {V} (input : text) (x : @output V) : Prop :=
  match x with ObservablesFile _ _ | BulkFile _ _ _ => True | RamtrjFile _ _ | XyzFile _ _ | SnapshotFile _ _ => output_name x <> input end.

(** Parameters which can be written in the input: constant, linear, exponential and piecewise ones (of such parameters). *)
Inductive written_parameter : parameter -> Prop :=
| wp_constant a : written_parameter (constant a)
| wp_linear a b : written_parameter (linear a b)
| wp_exponential a b : written_parameter (exponential a b)
| wp_piecewise l us : (forall x, In x l -> written_parameter (snd x)) -> piecewise l = Some us -> written_parameter (piecewise_value us).
Definition written_environment {Smp Scl} (e : @environment parameter Smp Scl) : Prop :=
  (forall x, ev_temperature e = Some x -> written_parameter x) /\ (forall x, ev_pressure e = Some x -> written_parameter x).
