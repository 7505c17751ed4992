(** Concrete trajectories. *)
From Coq Require Import ZArith List Bool Lia.
From Verif Require Import OptModel TrjModel TrjSpec TrjProofs TrjPlayProofs TrjRecProofs TrjPropProofs.
Import ListNotations.
Open Scope Z_scope.

Definition snap (x : Z) : snapshot := Snapshot [x; 0; 0; 0; x; 0; 0; 0; x] [([1; 2; x], [3; 300; 18446744073709551615]); ([4; x; 5], [6; 7; 8])].
Definition snaps : list snapshot := [snap 70000; snap 12; snap 4607182418800017408].
Lemma snap_good x : is_word64 x -> good_snapshot 2 (snap x).
Proof.
  intros H. unfold good_snapshot, snap; cbn [sn_box sn_shapes length]. split; [reflexivity|]. split; [repeat (constructor; [unfold is_word64 in *; lia|]); constructor|]. split; [reflexivity|].
  repeat (constructor; [cbn [fst snd length]; split; [reflexivity|]; split; [reflexivity|]; split; repeat (constructor; [unfold is_word64 in *; lia|]); constructor|]). constructor.
Qed.
Lemma snaps_good : Forall (good_snapshot 2) snaps.
Proof. constructor; [|constructor; [|constructor; [|constructor]]]; apply snap_good; unfold is_word64; lia. Qed.
Lemma snaps_fit : fits 2 10 3. Proof. unfold fits, size_of. lia. Qed.

(** A player of the three snapshots. *)
Definition recorded : list Z := match recording [] 2 10 false (numbered 10 0 snaps) with Some cs => fl_bytes (perform cs (File [] 0)) | None => [] end.
Lemma recorded_trajectory : trajectory 2 10 snaps recorded.
Proof. destruct (written_file 2 10 snaps snaps_fit snaps_good) as (cs & E & T). unfold recorded. rewrite E. exact T. Qed.
Definition three : player := match openPlayer recorded with Some p => p | None => fresh_player (Header 0 0 0 0 0) [] end.
Lemma three_opened : openPlayer recorded = Some three.
Proof. vm_compute. reflexivity. Qed.
Lemma three_plays : plays 2 10 snaps three.
Proof. destruct (player_plays 2 10 snaps recorded snaps_fit snaps_good recorded_trajectory) as (p & E & H). rewrite three_opened in E. apply some_inj in E. rewrite E. exact H. Qed.

(** Closing, then resetting. *)
Lemma reset_after_close : play 2 [Next; Close; Reset] three = None.
Proof. vm_compute. reflexivity. Qed.

(** A header which was written, with a damaged end: the report says 0 snapshots in the header. *)
Lemma report_wrong : exists f p h, openFixing (firstn 400 recorded) (newAutoFix 2) = (f, Some p) /\ readHeader (firstn 400 recorded) = Some h /\
  hd_snapshots h = 3 /\ af_needed f = true /\ af_headerSnapshots f = 0.
Proof. do 3 eexists. split; [vm_compute; reflexivity|]. split; [vm_compute; reflexivity|]. split; [reflexivity|]. split; reflexivity. Qed.
