(** C78: extended XYZ snapshots and trajectories. *)
From Coq Require Import Reals ZArith List Bool Lia String.
From Verif Require Import TextModel LinesSpec StringsSpec GeomModel PbcModel RotModel RotSpec XyzModel XyzSpec XyzTextProofs XyzHistProofs XyzCutProofs XyzExamples OptModel.
Import ListNotations.
Local Open Scope list_scope.
Open Scope Z_scope.

(** A reader of the format gets from a snapshot, whatever follows it, the three box vectors, the auxiliary info, and for each shape its position
    and a unit quaternion which rotates vectors as its orientation does. *)
Theorem C78_snapshot : forall show, (forall x, numeral (show x)) -> forall p aux, proper p -> plain_aux aux ->
  exists w, xyz_write show p aux = Some w /\ exists f, frame_of show p aux f /\ forall rest, read_frame (w ++ rest) = Some (f, rest).
Proof. exact frame_read. Qed.
Print Assumptions C78_snapshot.
Example C78_snapshot_case : (forall x, numeral (printed x)) /\ proper pair_packing /\ plain_aux [(tx "cycles", tx "12"); (tx "step.rotation", tx "0.5 rad")].
Proof. split; [exact printed_numerals|]. split; [exact pair_proper|]. repeat constructor; discriminate. Qed.

(** A new recording holds exactly the recorded snapshots, whatever the file was, and knows the last cycle. *)
Theorem C78_recorded : forall show, (forall x, numeral (show x)) -> forall file l, proper_history l ->
  exists r0 r, xyz_create file false = Done r0 /\ rc_last r0 = 0 /\ record_all show l r0 = Done r /\ rc_last r = last_cycle l /\
  (exists t fs, file_of r = Some t /\ texts show l t /\ frames t fs /\ history_frames show l fs).
Proof. exact fresh_session. Qed.
Print Assumptions C78_recorded.
Example C78_recorded_case : proper_history sample_history. Proof. exact sample_proper. Qed.

(** On a stream with separate positions, a recording which is opened again gives its last cycle, and new snapshots follow the old ones. *)
Theorem C78_appended : forall show, (forall x, numeral (show x)) -> forall l l2 t g p, proper_history (l ++ l2) -> texts show l t ->
  exists r0 r, xyz_recorder (Some (Io t g p false)) true = Done r0 /\ rc_last r0 = last_cycle l /\
  record_all show l2 r0 = Done r /\ rc_last r = last_cycle (l ++ l2) /\
  exists t' fs, file_of r = Some t' /\ texts show (l ++ l2) t' /\ frames t' fs /\ history_frames show (l ++ l2) fs.
Proof. exact separate_session. Qed.
Print Assumptions C78_appended.
Example C78_appended_case : proper_history (sample_history ++ sample_history) /\ texts printed sample_history (sample_text sample_history).
Proof. split; [apply Forall_app; split; exact sample_proper|apply sample_texts]. Qed.

(** On a file the last cycle is found as well, but new snapshots are written over the last old one, from the end of its first line. *)
Theorem C78_continued : forall show, (forall x, numeral (show x)) -> forall l p c l2 t t2 tl, 0 <= c < 2 ^ 64 ->
  texts show (l ++ [(p, c)]) t -> texts show l2 t2 -> texts show l tl ->
  exists r0 r, xyz_create (Some t) true = Done r0 /\ rc_last r0 = c /\ file_of r0 = Some t /\ record_all show l2 r0 = Done r /\ rc_last r = last (List.map snd l2) c /\
  let kept := tl ++ decimal (Z.of_nat (List.length (pk_shapes p))) in
  file_of r = Some (kept ++ t2 ++ skipn (List.length (kept ++ t2)) t) /\ exists lost, t = kept ++ newline :: lost.
Proof. exact joint_session. Qed.
Print Assumptions C78_continued.
Example C78_continued_case : texts printed (sample_history ++ [(pair_packing, 1010)]) (sample_text (sample_history ++ [(pair_packing, 1010)])) /\
  texts printed sample_history (sample_text sample_history) /\ texts printed [(pair_packing, 1020)] (sample_text [(pair_packing, 1020)]).
Proof. repeat split; apply sample_texts. Qed.

(** So no continuation of a recording in a file can be read: whatever has been recorded before and after. *)
Theorem C78_continued_refuted : forall show, (forall x, numeral (show x)) -> forall l1 l2 t, proper_history (l1 ++ l2) ->
  List.Forall (fun e => pk_shapes (fst e) <> []) l1 -> l1 <> [] -> l2 <> [] -> texts show l1 t ->
  exists r t', bind_outcome (xyz_create (Some t) true) (record_all show l2) = Done r /\ rc_last r = last_cycle (l1 ++ l2) /\ file_of r = Some t' /\
    forall fs, history_frames show (l1 ++ l2) fs -> ~ frames t' fs.
Proof. exact never_continued. Qed.
Print Assumptions C78_continued_refuted.
Example C78_continued_refuted_case : proper_history (sample_history ++ sample_history) /\ List.Forall (fun e => pk_shapes (fst e) <> []) sample_history /\ sample_history <> [].
Proof. split; [apply Forall_app; split; exact sample_proper|]. split; [repeat constructor; discriminate|discriminate]. Qed.

(** Any text which is not empty: the number after the first "cycles=" in the last line beginning with "Lattice". *)
Theorem C78_reopened : forall t qs h ss a b n rest, t <> [] -> pieces_of newline t (qs ++ h :: ss) -> headed h -> List.Forall (fun l => ~ headed l) ss ->
  h = a ++ tx "cycles=" ++ b -> (forall a' b', h = a' ++ tx "cycles=" ++ b' -> (List.length a <= List.length a')%nat) -> extract_size b = Some (n, rest) ->
  exists r, xyz_create (Some t) true = Done r /\ rc_last r = n /\ file_of r = Some t.
Proof. exact any_found. Qed.
Print Assumptions C78_reopened.
Example C78_reopened_case : exists t qs h ss a b n rest, t <> [] /\ pieces_of newline t (qs ++ h :: ss) /\ headed h /\ List.Forall (fun l => ~ headed l) ss /\
  h = a ++ tx "cycles=" ++ b /\ (forall a' b', h = a' ++ tx "cycles=" ++ b' -> (List.length a <= List.length a')%nat) /\ extract_size b = Some (n, rest).
Proof.
  exists (tx "1" ++ newline :: tx "Lattice cycles= 7x" ++ newline :: tx "A 1"), [tx "1"], (tx "Lattice cycles= 7x"), [tx "A 1"], (tx "Lattice "), (tx " 7x"), 7, (tx "x").
  split; [discriminate|]. split; [split; [discriminate|]; split; [repeat constructor; discriminate|reflexivity]|]. split; [exists (tx " cycles= 7x"); reflexivity|].
  split; [constructor; [intros (r & K); discriminate K|constructor]|]. split; [reflexivity|]. split; [|reflexivity].
  intros a' b' K. do 8 (destruct a' as [|? a']; [discriminate K|injection K as _ K]). cbn [List.length]. vm_compute (List.length (tx "Lattice ")). lia.
Qed.
(** Without such a line or number it is refused; a missing file, a stream which is not empty and no stream are refused too. *)
Theorem C78_refused : forall t ps, t <> [] -> pieces_of newline t ps ->
  List.Forall (fun l => ~ headed l) ps \/
  (exists qs h ss, ps = qs ++ h :: ss /\ headed h /\ List.Forall (fun l => ~ headed l) ss /\
     (~ occurs (tx "cycles=") h \/ exists a b, h = a ++ tx "cycles=" ++ b /\ (forall a' b', h = a' ++ tx "cycles=" ++ b' -> (List.length a <= List.length a')%nat) /\ extract_size b = None)) ->
  xyz_create (Some t) true = Invalid.
Proof. exact any_refused. Qed.
Print Assumptions C78_refused.
Example C78_refused_case : pieces_of newline (tx "1" ++ newline :: tx "A 1") [tx "1"; tx "A 1"] /\ List.Forall (fun l => ~ headed l) [tx "1"; tx "A 1"].
Proof. split; [split; [discriminate|]; split; [repeat constructor; discriminate|reflexivity]|]. repeat (constructor; [intros (r & K); discriminate K|]). constructor. Qed.
Theorem C78_misused : xyz_create None true = Invalid /\ (forall append, xyz_recorder None append = Precondition) /\
  (forall s, io_text s <> [] -> xyz_recorder (Some s) false = Invalid) /\
  (forall s append, io_text s = [] -> exists r, xyz_recorder (Some s) append = Done r /\ rc_last r = 0 /\ file_of r = Some []) /\
  (forall show p c r, recordSnapshot show p c (close r) = Precondition).
Proof. exact misused. Qed.
Print Assumptions C78_misused.
Example C78_misused_case : xyz_recorder (Some (Io (tx "1") 0 0 true)) false = Invalid. Proof. apply C78_misused. discriminate. Qed.

(** A process which dies while it writes a snapshot leaves a beginning [a] of its text. Opened again, the recording gives: the previous cycle, as
    long as the second line does not begin with "Lattice" (nothing can be given when there was no previous snapshot); an error, until the first
    digit of the cycle number; then this cycle without the digits which are missing. The beginning stays in the file. *)
Theorem C78_interrupted : forall show, (forall x, numeral (show x)) -> forall l p c a b t w, proper_history (l ++ [(p, c)]) ->
  texts show l t -> xyz_write show p (cycles_pair c) = Some w -> w = a ++ b ->
  exists h atoms, w = decimal (Z.of_nat (List.length (pk_shapes p))) ++ newline :: h ++ decimal c ++ newline :: atoms /\
  (exists m, h = tx "Lattice" ++ m ++ tx "cycles=") /\ List.Forall (fun z => z <> newline) h /\
  let n := List.length (decimal (Z.of_nat (List.length (pk_shapes p)))) in
  let opened := xyz_create (Some (t ++ a)) true in
  let gives := fun k => exists r, opened = Done r /\ rc_last r = k /\ file_of r = Some (t ++ a) in
  ((List.length a < n + 8)%nat -> l <> [] \/ a = [] -> gives (last_cycle l)) /\
  ((List.length a < n + 8)%nat -> l = [] -> a <> [] -> opened = Invalid) /\
  ((n + 8 <= List.length a <= n + 1 + List.length h)%nat -> opened = Invalid) /\
  (forall k, (n + 1 + List.length h < List.length a)%nat -> (k = (n + 1 + List.length h + List.length (decimal c) - List.length a))%nat -> gives (c / 10 ^ Z.of_nat k)).
Proof. exact cut_property. Qed.
Print Assumptions C78_interrupted.
Example C78_interrupted_case : proper_history (sample_history ++ [(pair_packing, 1010)]) /\ texts printed sample_history (sample_text sample_history) /\
  exists w, xyz_write printed pair_packing (cycles_pair 1010) = Some w.
Proof. split; [apply Forall_app; split; [exact sample_proper|]; constructor; [|constructor]; split; [exact pair_proper|cbn; lia]|]. split; [apply sample_texts|exact sample_written]. Qed.

(** An interrupted snapshot is taken for a complete one, though the file cannot be read; a wrong cycle can be given. *)
Theorem C78_interrupted_refuted : forall show, (forall x, numeral (show x)) -> forall l p c t w, proper_history (l ++ [(p, c)]) -> pk_shapes p <> [] ->
  texts show l t -> xyz_write show p (cycles_pair c) = Some w ->
  (exists a b r, w = a ++ b /\ b <> [] /\ xyz_create (Some (t ++ a)) true = Done r /\ rc_last r = c /\ forall fs, ~ frames (t ++ a) fs) /\
  (10 <= c -> exists a b r, w = a ++ b /\ b <> [] /\ xyz_create (Some (t ++ a)) true = Done r /\ rc_last r = c / 10).
Proof. intros show Hs l p c t w H N T W. split; [exact (atoms_lost show Hs l p c t w H N T W)|]. intros Hc. exact (digit_lost show Hs l p c t w H Hc T W). Qed.
Print Assumptions C78_interrupted_refuted.

(** A quotation mark in a value with white space makes the snapshot unreadable. *)
Theorem C78_quotes_refuted : forall show, (forall x, numeral (show x)) -> forall p, proper p ->
  exists w, xyz_write show p [(tx "k", tx "a"" b")] = Some w /\ read_frame w = None.
Proof. exact quote_lost. Qed.
Print Assumptions C78_quotes_refuted.
