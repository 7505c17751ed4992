(** Two particles, one of them turned by half a turn about the z axis, in a triclinic box; two recorded cycles. *)
From Coq Require Import Reals ZArith List Bool Lra Lia String.
From Verif Require Import TextModel LinesSpec GeomModel PbcModel RotModel RotSpec GeomProofs XyzModel XyzSpec XyzTextProofs XyzHistProofs OptModel.
Import ListNotations.
Local Open Scope list_scope.
Open Scope Z_scope.

Definition printed (x : R) : list Z := if Rlt_dec x 0 then tx "-1.25" else tx "2.5e+3".
Lemma printed_numerals x : numeral (printed x).
Proof. unfold printed. destruct (Rlt_dec x 0); (split; [discriminate|]); repeat (constructor; [first [left; reflexivity | right; cbn; tauto]|]); constructor. Qed.
Definition turned : mat := (M33 (-1) 0 0 0 (-1) 0 0 0 1)%R.
Definition pair_packing : packing := (Packing (M33 5 1 0 0 5 1 0 0 5) [Shape (V3 1 2 3) mid; Shape (V3 (-1) 0 2) turned])%R.
Lemma pair_proper : proper pair_packing.
Proof.
  split; [|cbn; lia].
  apply Forall_forall. intros s [<-|[<-|[]]]; cbn [sh_rot]; split; intros [u0 u1 u2] [v0 v1 v2]; try apply vec_ext; unfold vdot; cbn; ring.
Qed.
Definition sample_history : list (packing * Z) := [(pair_packing, 990); (pair_packing, 1000)].
Lemma sample_proper : proper_history sample_history.
Proof. apply Forall_forall. intros e [<-|[<-|[]]]; (split; [exact pair_proper|cbn; lia]). Qed.
Definition sample_text (l : list (packing * Z)) : list Z := unlines (hist_lines printed l).
Lemma sample_texts l : texts printed l (sample_text l). Proof. apply texts_lines. reflexivity. Qed.
Lemma sample_written : exists w, xyz_write printed pair_packing (cycles_pair 1010) = Some w.
Proof. eexists. apply write_lines. Qed.
