(** Trajectories: recording, appending, crashes and playing. *)
From Coq Require Import ZArith List Bool Lia.
From Verif Require Import OptModel TrjModel TrjSpec TrjProofs TrjPlayProofs TrjRecProofs TrjPropProofs TrjExamples.
Import ListNotations.
Open Scope Z_scope.

(** C27: what is recorded and closed has exactly the documented content, ... *)
Theorem C27_written : forall n step ss,
  fits n step (Z.of_nat (length ss)) -> Forall (good_snapshot n) ss ->
  exists cs, recording [] n step false (numbered step 0 ss) = Some cs /\ trajectory n step ss (fl_bytes (perform cs (File [] 0))).
Proof. exact written_file. Qed.
Print Assumptions C27_written.
(** ... and opening it gives the same numbers and, one by one, the same snapshots. *)
Theorem C27_read_back : forall n step ss cs,
  fits n step (Z.of_nat (length ss)) -> Forall (good_snapshot n) ss ->
  recording [] n step false (numbered step 0 ss) = Some cs ->
  exists p vs, openPlayer (fl_bytes (perform cs (File [] 0))) = Some p /\
    hd_particles (py_header p) = n /\ hd_step (py_header p) = step /\ hd_snapshots (py_header p) = Z.of_nat (length ss) /\
    play n (map (fun _ => Next) ss) p = Some vs /\ map (fun v => fst (fst (fst v))) vs = map Shown ss.
Proof.
  intros n step ss cs F G E. destruct (written_file n step ss F G) as (cs' & E' & T). rewrite E in E'. apply some_inj in E'. subst cs'.
  destruct (player_plays n step ss _ F G T) as (p & O & P). destruct (all_in_order n step ss p P) as (vs & V & M). exists p, vs.
  split; [exact O|]. destruct P as (A & B & C & _). split; [exact A|]. split; [exact B|]. split; [exact C|]. split; [exact V|exact M].
Qed.
Print Assumptions C27_read_back.
(** Recording is refused exactly if the cycle numbers are not successive multiples of the step or sizes do not agree. *)
Theorem C27_accepted : forall xs n step,
  is_word64 n -> is_word64 step -> Z.of_nat (length xs) < 2 ^ 64 -> Z.of_nat (length xs) * step < 2 ^ 64 ->
  (recording [] n step false xs <> None <->
   0 < n /\ 0 < step /\ exists ss, xs = numbered step 0 ss /\ Forall (fun s => Z.of_nat (length (sn_shapes s)) = n) ss).
Proof. exact accepted. Qed.
Print Assumptions C27_accepted.
Example C27_example : fits 2 10 (Z.of_nat (length snaps)) /\ Forall (good_snapshot 2) snaps.
Proof. split; [exact snaps_fit|exact snaps_good]. Qed.
Example C27_example2 : recording [] 2 10 false [(snap 1, 10); (snap 2, 30)] = None /\ recording [] 2 10 false [(snap 1, 10); (snap 2, 20)] <> None.
Proof. split; [reflexivity|vm_compute; discriminate]. Qed.

(** C28: recording in two sessions gives the same bytes. *)
Theorem C28_append : forall n step old new cs1 cs2 cs,
  fits n step (Z.of_nat (length (old ++ new))) -> Forall (good_snapshot n) (old ++ new) ->
  recording [] n step false (numbered step 0 old) = Some cs1 ->
  let l := fl_bytes (perform cs1 (File [] 0)) in
  recording l n step true (numbered step (Z.of_nat (length old)) new) = Some cs2 ->
  recording [] n step false (numbered step 0 (old ++ new)) = Some cs ->
  fl_bytes (perform cs2 (File l 0)) = fl_bytes (perform cs (File [] 0)).
Proof. exact append_same. Qed.
Print Assumptions C28_append.
(** The second session is not refused and leaves a complete trajectory, whoever wrote the first part. *)
Theorem C28_continues : forall n step old new content,
  fits n step (Z.of_nat (length (old ++ new))) -> Forall (good_snapshot n) (old ++ new) -> trajectory n step old content ->
  exists cs, recording content n step true (numbered step (Z.of_nat (length old)) new) = Some cs /\
    trajectory n step (old ++ new) (fl_bytes (perform cs (File content 0))).
Proof. exact appended_file. Qed.
Print Assumptions C28_continues.
(** Appending with other numbers is refused before anything is written, and so is recording over an existing file. *)
Theorem C28_refused : forall n step ss l,
  fits n step (Z.of_nat (length ss)) -> Forall (good_snapshot n) ss -> trajectory n step ss l ->
  (forall n' step' xs, n' <> n \/ step' <> step -> recording l n' step' true xs = None) /\
  (forall n' step' xs, recording l n' step' false xs = None).
Proof.
  intros n step ss l F G T. split; intros; unfold recording.
  - rewrite (append_refused n step ss l n' step' F G T) by assumption. reflexivity.
  - rewrite no_truncation; [reflexivity|]. apply trajectory_iff in T; auto. rewrite T. discriminate.
Qed.
Print Assumptions C28_refused.
Example C28_example : exists cs, recording recorded 2 10 true (numbered 10 3 [snap 5]) = Some cs.
Proof. eexists. vm_compute. reflexivity. Qed.

(** C29: whatever the moment the process dies, a file without a complete header is not opened, and any other is opened with auto-fix
    and shows exactly the completely stored snapshots, at least those which were there before; without auto-fix it is opened
    only if nothing is left over, and then shows all of them. *)
Theorem C29_crash : forall n step append old new content cs k,
  fits n step (Z.of_nat (length (old ++ new))) -> Forall (good_snapshot n) (old ++ new) -> session n step append old content ->
  recording content n step append (numbered step (Z.of_nat (length old)) new) = Some cs ->
  let l := left_after k cs content in
  ((length l < 33)%nat -> openPlayer l = None /\ forall e, openFixing l (newAutoFix e) = (reportError (newAutoFix e), None)) /\
  ((33 <= length l)%nat ->
   exists j rest f p, partly n (old ++ new) j rest l /\ (length old <= j)%nat /\
     openFixing l (newAutoFix n) = (f, Some p) /\ plays n step (firstn j (old ++ new)) p /\
     af_successful f = true /\ af_inferred f = Z.of_nat j /\ af_remainder f = Z.of_nat (length rest) /\
     openPlayer l = (if af_needed f then None else Some p) /\ (af_needed f = false -> rest = []) /\
     (forall e, af_needed f = true -> e <> n -> openFixing l (newAutoFix e) = (reportError (newAutoFix e), None))).
Proof.
  intros n step append old new content cs k F G S R l. split.
  - intros H. split; [apply (crash_short l n H)|]. intros e. apply (crash_short l e H).
  - intros H. exact (crash_open n step append old new content cs k F G S R H).
Qed.
Print Assumptions C29_crash.
(** Every byte given to the stream before the end is on the disk. *)
Theorem C29_size : forall n step append old new content cs k,
  fits n step (Z.of_nat (length (old ++ new))) -> Forall (good_snapshot n) (old ++ new) -> session n step append old content ->
  recording content n step append (numbered step (Z.of_nat (length old)) new) = Some cs ->
  length (left_after k cs content) = Nat.min (length content + (k - 1)) (Z.to_nat (33 + Z.of_nat (length (old ++ new)) * size_of n)).
Proof. exact left_length. Qed.
Print Assumptions C29_size.
(** The number of snapshots which the header claims is not in the report of a repaired file. *)
Theorem C29_report_refuted : exists l f p h, openFixing l (newAutoFix 2) = (f, Some p) /\ readHeader l = Some h /\
  hd_snapshots h = 3 /\ af_needed f = true /\ af_headerSnapshots f = 0.
Proof. exists (firstn 400 recorded). exact report_wrong. Qed.
Print Assumptions C29_report_refuted.
Example C29_example : session 2 10 false [] [] /\ session 2 10 true snaps recorded.
Proof. split; [split; reflexivity|exact recorded_trajectory]. Qed.

(** C30: every history of calls is answered as by a shelf of the snapshots. *)
Theorem C30_player : forall n step ss l,
  fits n step (Z.of_nat (length ss)) -> Forall (good_snapshot n) ss -> trajectory n step ss l ->
  exists p, openPlayer l = Some p /\ plays n step ss p.
Proof. exact player_plays. Qed.
Print Assumptions C30_player.
(** After each call: the cycle number is that of the snapshot just delivered, there is a next one only before the last. *)
Theorem C30_belongs : forall n step ss p ns vs,
  plays n step ss p -> Forall legal_nav ns -> play n ns p = Some vs ->
  forall r b c t, In (r, b, c, t) vs ->
    t = Z.of_nat (length ss) * step /\
    (exists i, (i <= length ss)%nat /\ c = Z.of_nat i * step /\ (b = true -> (i < length ss)%nat) /\
     forall x, r = Shown x -> exists i', i = S i' /\ nth_error ss i' = Some x).
Proof. exact view_belongs. Qed.
Print Assumptions C30_belongs.
(** No history is undefined, but for a reset after closing. *)
Theorem C30_defined : forall n step ss p ns,
  plays n step ss p -> Forall legal_nav ns -> orderly ns = true -> play n ns p <> None.
Proof. exact play_defined. Qed.
Print Assumptions C30_defined.
Theorem C30_reset_refuted : exists p, plays 2 10 snaps p /\ play 2 [Next; Close; Reset] p = None.
Proof. exists three. split; [exact three_plays|exact reset_after_close]. Qed.
Print Assumptions C30_reset_refuted.
(** A packing of a different size is refused. *)
Theorem C30_wrong_size : forall n n' p, hd_particles (py_header p) = n -> n' <> n -> nextSnapshot n' p = Some (p, Refused).
Proof. exact wrong_size. Qed.
Print Assumptions C30_wrong_size.
Example C30_example : exists vs, play 2 [Next; Jump 20; Next; Next; Last; Jump 15; Reset; Next; Close; Next] three = Some vs /\
  map (fun v => fst (fst (fst v))) vs = [Shown (snap 70000); Shown (snap 12); Shown (snap 4607182418800017408); Refused; Shown (snap 4607182418800017408); Refused; Done; Shown (snap 70000); Done; Refused] /\
  map (fun v => snd (fst v)) vs = [10; 20; 30; 30; 30; 30; 0; 10; 10; 10].
Proof. eexists. split; [vm_compute; reflexivity|]. split; vm_compute; reflexivity. Qed.

(** C31: a truncated player behaves as a player of the first cycles only. *)
Theorem C31_truncated : forall n step ss l,
  fits n step (Z.of_nat (length ss)) -> Forall (good_snapshot n) ss -> trajectory n step ss l ->
  exists p, openPlayer l = Some p /\
    (forall k, (k <= length ss)%nat -> exists t, newTruncated p (Z.of_nat k * step) = Some t /\
       forall ns, Forall legal_nav ns -> playT n ns t = leaf ns (Shelf (firstn k ss) step 0 true)) /\
    (forall total, total > Z.of_nat (length ss) * step \/ total mod step <> 0 -> newTruncated p total = None).
Proof. exact truncated_player. Qed.
Print Assumptions C31_truncated.
Example C31_example : exists t vs, newTruncated three 20 = Some t /\ playT 2 [Next; Next; Next; Last; Jump 30] t = Some vs /\
  map (fun v => fst (fst (fst v))) vs = [Shown (snap 70000); Shown (snap 12); Refused; Shown (snap 12); Refused].
Proof. do 2 eexists. split; [vm_compute; reflexivity|]. split; vm_compute; reflexivity. Qed.
