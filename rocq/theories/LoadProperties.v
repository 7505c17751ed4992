(** C49: where the program starts from. *)
From Coq Require Import ZArith List Bool Lia.
From Verif Require Import OptModel TextModel RamsnapModel RamsnapSpec RamsnapExamples LoadModel LoadSpec LoadProofs LoadRunProofs LoadHistoryProofs LoadExamples.
Import ListNotations.
Open Scope Z_scope.

(** When a file of a run is not a RAMSNAP file with the number of cycles, the program refuses to start. *)
Theorem C49_corrupted : forall D scan zero hasVolume accepts files cont runs, Forall proper_run runs -> (exists r, In r runs /\ unreadable files r) ->
  exists why, loadPacking D scan zero hasVolume accepts files (Some auto_name) cont runs = Refused why.
Proof. intros D scan zero hasVolume accepts. exact (load_refused scan zero hasVolume accepts). Qed.
Print Assumptions C49_corrupted.
Example C49_corrupted_case : exists why, bit_load bad_files (Some auto_name) None [run_a; run_b; run_c] = Refused why.
Proof. apply C49_corrupted; [exact proper_runs|]. exists run_b. split; [right; left; reflexivity|exact b_unreadable]. Qed.

(** When all the runs are finished, nothing is loaded and nothing will be performed. *)
Theorem C49_all_finished : forall D scan zero hasVolume accepts files cont runs, runs <> [] -> Forall proper_run runs -> (forall r, In r runs -> finished files r) ->
  loadPacking D scan zero hasVolume accepts files (Some auto_name) cont runs = Done (Loaded D (length runs) 0 false None true runs).
Proof. intros D scan zero hasVolume accepts. exact (load_finished scan zero hasVolume accepts). Qed.
Print Assumptions C49_all_finished.
Example C49_all_finished_case : bit_load files_300 (Some auto_name) None [run_a] = Done (Loaded bool 1 0 false None true [run_a]).
Proof. apply C49_all_finished; [discriminate|exact (Forall_cons _ (Forall_inv proper_runs) (Forall_nil _))|]. intros r [<-|[]]. exists 200. split; [exact a_done|cbn; lia]. Qed.

(** When a run after the first unfinished one has been performed, the program refuses to start. *)
Theorem C49_later_performed : forall D scan zero hasVolume accepts files cont runs i r j q, runs <> [] -> Forall proper_run runs ->
  (forall q, In q runs -> ~ unreadable files q) -> first_unfinished files runs i r -> (i < j)%nat -> nth_error runs j = Some q -> ~ not_performed files q ->
  exists why, loadPacking D scan zero hasVolume accepts files (Some auto_name) cont runs = Refused why.
Proof. intros D scan zero hasVolume accepts. exact (load_later scan zero hasVolume accepts). Qed.
Print Assumptions C49_later_performed.
Example C49_later_performed_case : exists why, bit_load gap_files (Some auto_name) None [run_a; run_b; run_c] = Refused why.
Proof.
  apply (C49_later_performed _ _ _ _ _ gap_files None _ 1 run_b 2 run_c); [discriminate|exact proper_runs|exact readable_gap|exact b_first_gap|lia|reflexivity|].
  intros (name & A & B). destruct c_done_gap as (name' & content & m & rest & v & tail & A' & B' & _). congruence.
Qed.

(** The first run is not begun: everything starts from scratch. *)
Theorem C49_scratch : forall D scan zero hasVolume accepts files cont runs r, Forall proper_run runs -> (forall q, In q runs -> ~ unreadable files q) ->
  first_unfinished files runs 0 r -> (forall j q, (0 < j)%nat -> nth_error runs j = Some q -> not_performed files q) ->
  (not_performed files r \/ performed_cycles files r 0) ->
  loadPacking D scan zero hasVolume accepts files (Some auto_name) cont runs = Done (Loaded D 0 0 false None false runs).
Proof. intros D scan zero hasVolume accepts. exact (load_scratch scan zero hasVolume accepts). Qed.
Print Assumptions C49_scratch.
Example C49_scratch_case : bit_load no_files (Some auto_name) None [run_b; run_c] = Done (Loaded bool 0 0 false None false [run_b; run_c]).
Proof.
  assert (N : forall r, In r [run_b; run_c] -> not_performed no_files r) by (intros r [<-|[<-|[]]]; eexists; (split; reflexivity)).
  apply (C49_scratch _ _ _ _ _ no_files None [run_b; run_c] run_b); [exact (Forall_inv_tail proper_runs)| | |intros j q _ Hq; exact (N q (nth_error_In _ _ Hq))|left; apply N; left; reflexivity].
  - intros q Hq (name & content & _ & H & _). discriminate.
  - split; [reflexivity|]. split; [exact (not_performed_unfinished _ _ (N _ (or_introl eq_refl)))|]. intros; lia.
Qed.

(** A later run is the first unfinished one and is not begun: it starts from the last snapshot of the previous run. *)
Theorem C49_previous : forall D scan zero hasVolume accepts files cont runs i r q, Forall proper_run runs -> (forall q, In q runs -> ~ unreadable files q) ->
  first_unfinished files runs (S i) r -> (forall j q, (S i < j)%nat -> nth_error runs j = Some q -> not_performed files q) ->
  (not_performed files r \/ performed_cycles files r 0) -> nth_error runs i = Some q ->
  (forall p, stored scan zero hasVolume accepts files q p ->
     loadPacking D scan zero hasVolume accepts files (Some auto_name) cont runs = Done (Loaded D (S i) 0 false (Some p) false runs)) /\
  ((forall p, ~ stored scan zero hasVolume accepts files q p) -> exists why, loadPacking D scan zero hasVolume accepts files (Some auto_name) cont runs = Refused why).
Proof. intros D scan zero hasVolume accepts. exact (load_previous scan zero hasVolume accepts). Qed.
Print Assumptions C49_previous.
Example C49_previous_case : bit_load gap_files (Some auto_name) None [run_a; run_b] = Done (Loaded bool 1 0 false (Some (saved 200)) false [run_a; run_b]).
Proof.
  assert (B : first_unfinished gap_files [run_a; run_b] 1 run_b).
  { destruct b_first_gap as (_ & B1 & B2). split; [reflexivity|]. split; [exact B1|]. intros j q Hj Hq. apply (B2 j q Hj). destruct j; [exact Hq|lia]. }
  apply (proj1 (C49_previous bool bit_scan false bit_volume bit_accepts gap_files None [run_a; run_b] 0 run_b run_a
    (Forall_cons _ (Forall_inv proper_runs) (Forall_cons _ (Forall_inv (Forall_inv_tail proper_runs)) (Forall_nil _)))
    ltac:(intros q [<-|[<-|[]]]; apply readable_gap; cbn; auto) B ltac:(intros [|[|[|j]]] q Hj Hq; [lia|lia|discriminate|discriminate]) (or_introl b_missing_gap) eq_refl)).
  exact a_saved_gap.
Qed.

(** The first unfinished run is begun: it is continued from its last snapshot with the missing cycles of thermalisation and the whole
    averaging. *)
Theorem C49_continue : forall D scan zero hasVolume accepts files cont runs i r n, Forall proper_run runs -> (forall q, In q runs -> ~ unreadable files q) ->
  first_unfinished files runs i r -> (forall j q, (i < j)%nat -> nth_error runs j = Some q -> not_performed files q) -> performed_cycles files r n -> 0 < n ->
  (forall p, stored scan zero hasVolume accepts files r p -> exists r', with_thermalisation (Z.max 0 (thermalisation r - n)) r r' /\
     loadPacking D scan zero hasVolume accepts files (Some auto_name) cont runs = Done (Loaded D i n true (Some p) false (firstn i runs ++ r' :: skipn (S i) runs))) /\
  ((forall p, ~ stored scan zero hasVolume accepts files r p) -> exists why, loadPacking D scan zero hasVolume accepts files (Some auto_name) cont runs = Refused why).
Proof. intros D scan zero hasVolume accepts. exact (load_continue scan zero hasVolume accepts). Qed.
Print Assumptions C49_continue.
Example C49_continue_case : exists r', with_thermalisation 700 run_b r' /\
  bit_load files_300 (Some auto_name) None [run_a; run_b; run_c] = Done (Loaded bool 1 300 true (Some (saved 300)) false [run_a; r'; run_c]).
Proof. exact (proj1 (C49_continue _ _ _ _ _ files_300 None _ 1 run_b 300 proper_runs readable_300 b_first later_300 b_done eq_refl) (saved 300) b_saved). Qed.

(** However many times the program was started with .auto, and however each time it was interrupted or killed, it can be started again, and
    starts from the first unfinished run. *)
Theorem C49_never_refused : forall D (show : D -> text) scan zero hasVolume accepts runs, exact_codec show scan -> Forall proper_run runs ->
  NoDup (map run_out runs) -> runs <> [] -> forall files, history show scan zero hasVolume accepts runs files ->
  exists l, loadPacking D scan zero hasVolume accepts files (Some auto_name) None runs = Done l /\
  if ld_finished D l then forall q, In q runs -> finished files q else exists r, first_unfinished files runs (ld_start D l) r.
Proof. intros D show scan zero hasVolume accepts runs C P ND NE. exact (never_refused show scan zero hasVolume accepts C runs P ND NE). Qed.
Print Assumptions C49_never_refused.
Example C49_never_refused_case : exists l, bit_load files_300 (Some auto_name) None [run_a; run_b; run_c] = Done l /\
  if ld_finished bool l then forall q, In q [run_a; run_b; run_c] -> finished files_300 q else exists r, first_unfinished files_300 [run_a; run_b; run_c] (ld_start bool l) r.
Proof. apply (C49_never_refused bool bit_show); [exact bit_codec|exact proper_runs|exact outputs_differ|discriminate|exact history_300]. Qed.

(** When it is not interrupted and preconditions of integration hold also for the part which is left, all the runs get finished. *)
Theorem C49_completes : forall D (show : D -> text) scan zero hasVolume accepts runs, exact_codec show scan -> Forall proper_run runs ->
  NoDup (map run_out runs) -> runs <> [] -> forall files events, history show scan zero hasVolume accepts runs files ->
  Forall (proper_event hasVolume accepts) events -> (length runs <= length events)%nat -> Forall (fun e => ev_interrupted D e = false) events ->
  (forall q c, In q runs -> run_cycles q = Some c -> integrates c = true) ->
  (forall r n c, In r runs -> performed_cycles files r n -> run_cycles r = Some c -> n < thermalisation r + averaging r ->
     cy_snapshotEvery c <= Z.max 0 (thermalisation r - n) + averaging r) ->
  forall q, In q runs -> finished (invoke D show scan zero hasVolume accepts files (Some auto_name) None runs events) q.
Proof. intros D show scan zero hasVolume accepts runs C P ND NE. exact (completes show scan zero hasVolume accepts C runs P ND NE). Qed.
Print Assumptions C49_completes.
Example C49_completes_case : forall q, In q [run_a; run_b; run_c] ->
  finished (bit_invoke files_300 (Some auto_name) None [run_a; run_b; run_c] [full_run; full_run; full_run]) q.
Proof.
  apply (C49_completes bool bit_show); [exact bit_codec|exact proper_runs|exact outputs_differ|discriminate|exact history_300| |reflexivity| | |].
  - do 3 (constructor; [exact proper_full|]). constructor.
  - repeat constructor.
  - intros q c [<-|[<-|[<-|[]]]] E; cbn in E; try discriminate; injection E; intros; subst; reflexivity.
  - intros r n c [<-|[<-|[<-|[]]]] H E L; cbn in E; try discriminate; injection E; intros; subst.
    + rewrite (cycles_unique _ _ _ _ H a_done). cbn. lia.
    + rewrite (cycles_unique _ _ _ _ H b_done). cbn. lia.
Qed.

(** --start-from with a name of a run: the run starts from the last snapshot of the previous one. *)
Theorem C49_by_name : forall D scan zero hasVolume accepts files name runs i r, plain name -> NoDup (map run_name runs) -> nth_error runs i = Some r -> run_name r = name ->
  (i = O -> loadPacking D scan zero hasVolume accepts files (Some name) None runs = Done (Loaded D 0 0 false None false runs)) /\
  (forall k q p, i = S k -> nth_error runs k = Some q -> stored scan zero hasVolume accepts files q p ->
     loadPacking D scan zero hasVolume accepts files (Some name) None runs = Done (Loaded D i 0 false (Some p) false runs)) /\
  (forall cont, i = O -> loadPacking D scan zero hasVolume accepts files (Some first_name) cont runs = loadPacking D scan zero hasVolume accepts files (Some name) cont runs) /\
  (forall cont, S i = length runs -> loadPacking D scan zero hasVolume accepts files (Some last_name) cont runs = loadPacking D scan zero hasVolume accepts files (Some name) cont runs).
Proof.
  intros D scan zero hasVolume accepts files name runs i r N ND H E. repeat split.
  - intros ->. exact (named_first scan zero hasVolume accepts files name runs r N ND H E).
  - intros k q p -> Hq Hp. exact (named_previous scan zero hasVolume accepts files name runs k r q p N ND H E Hq Hp).
  - intros cont L. subst name. exact (proj1 (special_names scan zero hasVolume accepts files cont runs i r H N ND) L).
  - intros cont L. subst name. exact (proj2 (special_names scan zero hasVolume accepts files cont runs i r H N ND) L).
Qed.
Print Assumptions C49_by_name.
Example C49_by_name_case : bit_load files_300 (Some [98]) None [run_a; run_b; run_c] = Done (Loaded bool 1 0 false (Some (saved 200)) false [run_a; run_b; run_c]).
Proof.
  exact (proj1 (proj2 (C49_by_name bool bit_scan false bit_volume bit_accepts files_300 [98] [run_a; run_b; run_c] 1 run_b plain_b names_differ eq_refl eq_refl)) O run_a (saved 200) eq_refl eq_refl a_saved).
Qed.
Theorem C49_unknown_name : forall D scan zero hasVolume accepts files name cont runs, plain name -> (forall r, In r runs -> run_name r <> name) ->
  loadPacking D scan zero hasVolume accepts files (Some name) cont runs = Refused NoSuchRun.
Proof. intros D scan zero hasVolume accepts. exact (named_unknown scan zero hasVolume accepts). Qed.
Print Assumptions C49_unknown_name.

(** --continue [cont] with a name of a run: thermalisation continues up to [cont] cycles in total (0: as many as the run has), then averaging
    follows; when there is nothing to do, the next run starts. *)
Theorem C49_continue_name : forall D scan zero hasVolume accepts files name cont runs i r n p, plain name -> NoDup (map run_name runs) -> nth_error runs i = Some r -> run_name r = name ->
  run_cycles r <> None -> proper_run r -> stored scan zero hasVolume accepts files r p -> performed_cycles files r n -> let upto := if cont =? 0 then thermalisation r else cont in
  exists r', with_thermalisation (Z.max 0 (upto - n)) r r' /\ let runs' := firstn i runs ++ r' :: skipn (S i) runs in
  loadPacking D scan zero hasVolume accepts files (Some name) (Some cont) runs =
    if (upto <=? n) && (averaging r =? 0) then Done (Loaded D (S i) 0 false (Some p) (Nat.eqb (S i) (length runs)) runs')
    else Done (Loaded D i n true (Some p) false runs').
Proof. intros D scan zero hasVolume accepts. exact (named_continue scan zero hasVolume accepts). Qed.
Print Assumptions C49_continue_name.
Example C49_continue_name_case : exists r', with_thermalisation 1700 run_b r' /\
  bit_load files_300 (Some [98]) (Some 2000) [run_a; run_b; run_c] = Done (Loaded bool 1 300 true (Some (saved 300)) false [run_a; r'; run_c]).
Proof.
  exact (C49_continue_name bool bit_scan false bit_volume bit_accepts files_300 [98] 2000 [run_a; run_b; run_c] 1 run_b 300 (saved 300) plain_b names_differ eq_refl eq_refl
    ltac:(discriminate) (Forall_inv (Forall_inv_tail proper_runs)) b_saved b_done).
Qed.

(** A run interrupted during averaging for the second time can be taken as finished, although averaging was never completed. *)
Theorem C49_averaging_refuted : exists (r : run) (first second : event bool), proper_run r /\ averaging r = 100 /\
  ev_interrupted bool first = true /\ ev_cycles bool first < thermalisation r + averaging r /\ ev_interrupted bool second = true /\ ev_cycles bool second < averaging r /\
  let files := bit_invoke (bit_invoke no_files (Some auto_name) None [r] [first]) (Some auto_name) None [r] [second] in
  bit_load files (Some auto_name) None [r] = Done (Loaded bool 1 0 false None true [r]).
Proof.
  exists run_a, (stop_after 150), (stop_after 60). split; [exact (Forall_inv proper_runs)|]. split; [reflexivity|]. split; [reflexivity|]. split; [cbn; lia|].
  split; [reflexivity|]. split; [cbn; lia|]. exact averaging_lost.
Qed.
Print Assumptions C49_averaging_refuted.
(** When fewer cycles are left than there are between snapshots, the run can never be continued: the program fails each time it is started. *)
Theorem C49_stuck_refuted : exists runs files, Forall proper_run runs /\ (forall q c, In q runs -> run_cycles q = Some c -> integrates c = true) /\
  bit_history runs files /\ (exists r, In r runs /\ ~ finished files r) /\ forall events, bit_invoke files (Some auto_name) None runs events = files.
Proof.
  exists [run_b], files_950. split; [exact (Forall_cons _ (Forall_inv (Forall_inv_tail proper_runs)) (Forall_nil _))|].
  split; [intros q c [<-|[]] E; injection E; intros; subst; reflexivity|]. split; [exact history_950|].
  split; [|exact stuck]. exists run_b. split; [left; reflexivity|]. intros (n & H & L). rewrite (cycles_unique _ _ _ _ H b_950) in L. cbn in L. lia.
Qed.
Print Assumptions C49_stuck_refuted.
(** An interrupted overlap relaxation is taken as finished. *)
Theorem C49_relaxation_refuted : exists (r : run) (e : event bool), proper_run r /\ run_cycles r = None /\ ev_interrupted bool e = true /\
  bit_load (bit_invoke no_files (Some auto_name) None [r] [e]) (Some auto_name) None [r] = Done (Loaded bool 1 0 false None true [r]).
Proof. exists run_c, (stop_after 1). split; [exact (Forall_inv (Forall_inv_tail (Forall_inv_tail proper_runs)))|]. split; [reflexivity|]. split; [reflexivity|]. exact relaxation_lost. Qed.
Print Assumptions C49_relaxation_refuted.
(** Starting by name after a run without a RAMSNAP output is undefined behaviour. *)
Theorem C49_no_output_refuted : forall D scan zero hasVolume accepts files name runs i r q, plain name -> NoDup (map run_name runs) -> nth_error runs (S i) = Some r ->
  run_name r = name -> nth_error runs i = Some q -> run_out q = None -> loadPacking D scan zero hasVolume accepts files (Some name) None runs = Undefined.
Proof.
  intros D scan zero hasVolume accepts files name runs i r q (N1 & N2 & N3) ND H E Hq O.
  rewrite (named_is_index scan zero hasVolume accepts files name None runs (S i) N1 (named_index name runs (S i) r N2 N3 ND H E)).
  cbn [Nat.eqb]. unfold loadPackingNoContinuation. cbn [Nat.sub]. rewrite Nat.sub_0_r, Hq. unfold restorePacking. rewrite O. reflexivity.
Qed.
Print Assumptions C49_no_output_refuted.
