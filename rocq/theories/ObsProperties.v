(** C33 and C60: observable tables in files and in memory. *)
From Coq Require Import ZArith List Bool Lia.
From Verif Require Import OptModel TextModel LinesModel ObsModel ObsSpec ObsExamples ObsFinalProofs.
Import ListNotations.
Open Scope Z_scope.

(** A run which attaches the table left by earlier runs (or an empty file) finds the cycle number of its last row (0 when there are none),
    appends its own rows after it, in order, and leaves the earlier ones as they are. *)
Theorem C33_continues : forall D P (show : D -> list Z) os es file rs,
  Forall (fun ok => regular D P (fst ok)) os -> clean_observables D P show os -> clean_cycles P rs ->
  (file = table D P show os rs \/ (file = [] /\ rs = [])) ->
  session D P show os es file =
    Some (table D P show os (rs ++ all_snapshots P es), last_cycle P rs 0, last_cycle P (rs ++ all_snapshots P es) 0).
Proof. exact session_spec. Qed.
Print Assumptions C33_continues.
Example C33_continues_case : exists t, session Z Z decimal some_obs some_events (table Z Z decimal some_obs [(3, 1); (4, 1)]) = Some (t, 4, 20).
Proof.
  eexists. rewrite (C33_continues Z Z decimal some_obs some_events _ [(3, 1); (4, 1)] some_regular some_clean); [reflexivity| |left; reflexivity].
  repeat (constructor; [cbn [fst]; split; [lia|reflexivity]|]). constructor.
Qed.

(** Any number of runs: the file has one header and the rows of all the runs. *)
Theorem C33_runs : forall D P (show : D -> list Z) os,
  Forall (fun ok => regular D P (fst ok)) os -> clean_observables D P show os ->
  forall runs, Forall (fun es => clean_cycles P (all_snapshots P es)) runs -> runs <> [] ->
  sessions D P show os runs [] = Some (table D P show os (flat_map (all_snapshots P) runs)).
Proof. exact sessions_final. Qed.
Print Assumptions C33_runs.
Example C33_runs_case : sessions Z Z decimal some_obs [some_events; []; some_events] [] = Some (table Z Z decimal some_obs (all_snapshots Z some_events ++ all_snapshots Z some_events)).
Proof.
  rewrite (C33_runs Z Z decimal some_obs some_regular some_clean); [reflexivity| |discriminate]. constructor; [exact some_cycles|]. constructor; [constructor|]. constructor; [exact some_cycles|constructor].
Qed.

(** Whatever the content, if it is accepted then it is a header, which is the same, and complete lines, and the number found stands at the
    beginning of the last one. *)
Theorem C33_accepted : forall D P (os : list (observable D P * kind)) c c' content,
  with_observables D P os (no_collector D P) = Some c -> content <> [] -> attachOnTheFlyOutput D P content c = Some c' ->
  co_out D P c' = Some content /\
  exists lines, Forall one_line lines /\ content = header_line D P os ++ flat_map (fun l => l ++ [newline]) lines /\
    match rev lines with [] => co_last D P c' = 0 | r :: _ => exists rest, extract_size r = Some (co_last D P c', rest) end.
Proof. intros D P. exact (found_final D P (fun _ => [])). Qed.
Print Assumptions C33_accepted.
Example C33_accepted_case : exists c c', with_observables Z Z some_obs (no_collector Z Z) = Some c /\
  attachOnTheFlyOutput Z Z (header_line Z Z some_obs ++ [55; 55; 32; 97; 10]) c = Some c' /\ co_last Z Z c' = 77.
Proof. exists some_collector. eexists. split; [exact some_added|]. split; [vm_compute; reflexivity|reflexivity]. Qed.

(** A file with a different first line is refused. *)
Theorem C33_other_header : forall D P (os : list (observable D P * kind)) c content,
  with_observables D P os (no_collector D P) = Some c -> content <> [] -> fst (take_line newline content) ++ [newline] <> header_line D P os ->
  attachOnTheFlyOutput D P content c = None.
Proof. intros D P. exact (header_final D P (fun _ => [])). Qed.
Print Assumptions C33_other_header.
Example C33_other_header_case : exists c, with_observables Z Z some_obs (no_collector Z Z) = Some c /\
  attachOnTheFlyOutput Z Z (table Z Z decimal (rev some_obs) [(3, 1)]) c = None.
Proof. exists some_collector. split; [exact some_added|]. apply (C33_other_header _ _ _ _ _ some_added); [discriminate|]. vm_compute. discriminate. Qed.

(** A file whose last row was cut is refused. *)
Theorem C33_cut : forall D P (os : list (observable D P * kind)) c content x,
  with_observables D P os (no_collector D P) = Some c -> x <> newline -> attachOnTheFlyOutput D P (content ++ [x]) c = None.
Proof. intros D P. exact (cut_final D P (fun _ => [])). Qed.
Print Assumptions C33_cut.
Example C33_cut_case : exists c, with_observables Z Z some_obs (no_collector Z Z) = Some c /\
  attachOnTheFlyOutput Z Z (table Z Z decimal some_obs [(3, 1)] ++ [52; 32]) c = None.
Proof. exists some_collector. split; [exact some_added|]. change [52; 32] with ([52] ++ [32]). rewrite app_assoc. apply (C33_cut _ _ _ _ _ _ some_added). discriminate. Qed.

(** After any history no assertion fails and the table has the header and, for each snapshot since the last clearing, in order, the row of its
    cycle number and of the values of the snapshot observables. *)
Theorem C60_table : forall D P (show : D -> list Z) os es h,
  Forall (fun ok => regular D P (fst ok)) os -> names D P os <> [] ->
  exists c c', with_observables D P os (no_collector D P) = Some c /\ after D P show es c = Some c' /\
    printSnapshots D P c' h = Some ((if h then header_line D P os else []) ++ flat_map (row_line D P show os) (snapshots P es)).
Proof. exact tables_final. Qed.
Print Assumptions C60_table.
Example C60_table_case : exists c c', with_observables Z Z some_obs (no_collector Z Z) = Some c /\ after Z Z decimal some_events c = Some c' /\
  printSnapshots Z Z c' false = Some (row_line Z Z decimal some_obs (10, 4) ++ row_line Z Z decimal some_obs (20, 6)).
Proof. exact (C60_table Z Z decimal some_obs some_events false some_regular some_names). Qed.

(** A row has as many cells as the header has names, and values stand under the names of their observables. *)
Theorem C60_aligned : forall D P (show : D -> list Z) os p, Forall (fun ok => regular D P (fst ok)) os ->
  length (cells D P show os p) = length (names D P os) /\
  forall a o k b, os = a ++ (o, k) :: b -> k_snapshot k = true ->
    (forall i v, nth_error (ob_intervals D P o p) i = Some v ->
       exists j h, nth_error (ob_interval D P o) i = Some h /\ nth_error (names D P os) j = Some h /\ nth_error (cells D P show os p) j = Some (show v)) /\
    (forall i v, nth_error (ob_nominals D P o p) i = Some v ->
       exists j h, nth_error (ob_nominal D P o) i = Some h /\ nth_error (names D P os) j = Some h /\ nth_error (cells D P show os p) j = Some v).
Proof. intros D P show. exact (aligned_final D P show show). Qed.
Print Assumptions C60_aligned.
Example C60_aligned_case : names Z Z some_obs = [[114; 104; 111]; [115; 103; 110]; [120]; [121]] /\ cells Z Z decimal some_obs 7 = [[55]; [43]; [55]; [56]].
Proof. split; reflexivity. Qed.

(** The inline string shows "name: value" of the inline observables. *)
Theorem C60_inline : forall D P (show show_short : D -> list Z) os es p,
  Forall (fun ok => regular D P (fst ok)) os -> Forall (fun ok => ob_interval D P (fst ok) ++ ob_nominal D P (fst ok) <> []) os ->
  exists c c', with_observables D P os (no_collector D P) = Some c /\ after D P show es c = Some c' /\
    generateInlineObservablesString D P show_short c' p = Some (comma_joined (flat_map (fun o => inline_labels D P show_short o p) (chosen D P k_inline os))).
Proof. exact inline_final. Qed.
Print Assumptions C60_inline.
Example C60_inline_case : exists c c', with_observables Z Z some_obs (no_collector Z Z) = Some c /\ after Z Z decimal some_events c = Some c' /\
  generateInlineObservablesString Z Z decimal c' 7 = (* rho: 7, sgn: +, x: 7, y: 8 *)
    Some [114; 104; 111; 58; 32; 55; 44; 32; 115; 103; 110; 58; 32; 43; 44; 32; 120; 58; 32; 55; 44; 32; 121; 58; 32; 56].
Proof. refine (C60_inline Z Z decimal decimal some_obs some_events 7 some_regular _). repeat (constructor; [discriminate|]). constructor. Qed.

(** An observable is refused after values have been captured. *)
Theorem C60_late : forall D P (show : D -> list Z) os es c c' o k,
  Forall (fun ok => regular D P (fst ok)) os -> with_observables D P os (no_collector D P) = Some c -> after D P show es c = Some c' ->
  (snapshots P es <> [] /\ names D P os <> []) \/ (averaged P es <> [] /\ flat_map (ob_interval D P) (chosen D P k_averaging os) <> []) ->
  addObservable D P o k c' = None.
Proof. exact late_final. Qed.
Print Assumptions C60_late.
Example C60_late_case : exists c c', with_observables Z Z some_obs (no_collector Z Z) = Some c /\ after Z Z decimal some_events c = Some c' /\ addObservable Z Z ob_pair (Kind true true true) c' = None.
Proof.
  exists some_collector, later_collector. split; [exact some_added|]. split; [exact some_later|]. apply (C60_late Z Z decimal some_obs some_events _ _ _ _ some_regular some_added some_later). left. split; discriminate.
Qed.

(** It is not refused if the snapshots had no columns, and the table cannot be printed then. *)
Theorem C60_late_refuted : exists (os : list (observable Z Z * kind)) es c c' o k c'', Forall (fun ok => regular Z Z (fst ok)) ((o, k) :: os) /\
  with_observables Z Z os (no_collector Z Z) = Some c /\ after Z Z decimal es c = Some c' /\ snapshots Z es <> [] /\
  addObservable Z Z o k c' = Some c'' /\ k_snapshot k = true /\ printSnapshots Z Z c'' true = None.
Proof.
  exists [(ob_density, Kind false true false)], [Snapshot Z 5 2], blank_collector, blank_later, ob_pair, (Kind true false false), blank_added.
  split; [repeat (constructor; [intros p; split; reflexivity|]); constructor|]. split; [reflexivity|]. split; [vm_compute; reflexivity|]. split; [discriminate|]. split; [vm_compute; reflexivity|]. split; reflexivity.
Qed.
Print Assumptions C60_late_refuted.
