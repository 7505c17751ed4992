(** Runs, files and histories used in examples. *)
From Coq Require Import ZArith List Bool Lia.
From Verif Require Import OptModel TextModel TextProofs RamsnapModel RamsnapSpec RamsnapExamples LoadModel LoadSpec LoadProofs LoadRunProofs LoadHistoryProofs.
Import ListNotations.
Open Scope Z_scope.

(** Run a with 100 cycles of thermalisation and 100 of averaging, run b with 1000 of thermalisation and snapshots every 100, relaxation c *)
Definition run_a : run := Run [97] (Some (Cycles (Some 100) (Some 100) 10 10)) (Some [97; 46]).
Definition run_b : run := Run [98] (Some (Cycles (Some 1000) None 100 0)) (Some [98; 46]).
Definition run_c : run := Run [99] None (Some [99; 46]).
Definition bit_accepts (box : list bool) (ss : list (list bool * list bool)) : bool := negb (Nat.eqb (length ss) 0).
Definition no_files : text -> option text := fun _ => None.
Definition stop_after (n : Z) : event bool := Event bool true n [] (unit_bits, some_shapes).
Definition full_run : event bool := Event bool false 5 [] (unit_bits, some_shapes).
Notation bit_load := (loadPacking bool bit_scan false bit_volume bit_accepts).
Notation bit_invoke := (invoke bool bit_show bit_scan false bit_volume bit_accepts).
Notation bit_history := (history bit_show bit_scan false bit_volume bit_accepts).

Lemma proper_runs : Forall proper_run [run_a; run_b; run_c].
Proof.
  repeat constructor; cbn; try lia; try (intros; lia); try (eexists; reflexivity). intros H. congruence.
Qed.
Lemma clean_cycles n : 0 <= n -> clean_map (map_set cycles_key (decimal n) []).
Proof.
  intros N. split; [discriminate|]. split; [exact I|]. split; [|reflexivity]. constructor; [|constructor]. split.
  - split; [discriminate|]. repeat constructor.
  - destruct (decimal_head n []) as (c & r & E & Dc & _). split; [exists c, r; split; [exact E|exact (digit_not_space c Dc)]|].
    refine (Forall_impl _ _ (decimal_digits n)). intros a Ha ->. discriminate.
Qed.
Lemma proper_stop n : 0 <= n < 2 ^ 64 -> proper_event bit_volume bit_accepts (stop_after n).
Proof. intros N. split; [exact N|]. split; [exact clean_cycles|]. split; [exact some_packing_clean|]. split; reflexivity. Qed.
Lemma proper_full : proper_event bit_volume bit_accepts full_run.
Proof. split; [cbn; lia|]. split; [exact clean_cycles|]. split; [exact some_packing_clean|]. split; reflexivity. Qed.

(** Run a is made whole, and run b is stopped after 300 cycles. *)
Definition files_300 : text -> option text := bit_invoke no_files (Some auto_name) None [run_a; run_b; run_c] [full_run; stop_after 300].
Lemma history_300 : bit_history [run_a; run_b; run_c] files_300.
Proof.
  apply one_more; [apply no_history|].
  - intros r [<-|[<-|[<-|[]]]]; eexists; (split; [reflexivity|reflexivity]).
  - constructor; [exact proper_full|]. constructor; [apply proper_stop; lia|constructor].
Qed.
Lemma a_done : performed_cycles files_300 run_a 200.
Proof. unfold performed_cycles. do 6 eexists. split; [reflexivity|]. split; [vm_compute; reflexivity|]. split; [vm_compute; reflexivity|]. split; [left; reflexivity|vm_compute; reflexivity]. Qed.
Lemma b_done : performed_cycles files_300 run_b 300.
Proof. unfold performed_cycles. do 6 eexists. split; [reflexivity|]. split; [vm_compute; reflexivity|]. split; [vm_compute; reflexivity|]. split; [left; reflexivity|vm_compute; reflexivity]. Qed.
Lemma c_missing : not_performed files_300 run_c.
Proof. eexists. split; [reflexivity|vm_compute; reflexivity]. Qed.
Lemma b_first : first_unfinished files_300 [run_a; run_b; run_c] 1 run_b.
Proof.
  split; [reflexivity|]. split.
  - intros (n & H & L). rewrite (cycles_unique _ _ _ _ H b_done) in L. cbn in L. lia.
  - intros [|j] q Hj Hq; [|lia]. injection Hq; intros; subst. exists 200. split; [exact a_done|cbn; lia].
Qed.
Lemma readable_300 : forall q, In q [run_a; run_b; run_c] -> ~ unreadable files_300 q.
Proof.
  intros q [<-|[<-|[<-|[]]]] (name & content & H1 & H2 & H3); [exact (H3 _ a_done)|exact (H3 _ b_done)|]. destruct c_missing as (name' & A & B). congruence.
Qed.
Lemma later_300 : forall j q, (1 < j)%nat -> nth_error [run_a; run_b; run_c] j = Some q -> not_performed files_300 q.
Proof. intros [|[|[|j]]] q Hj Hq; try lia; cbn [nth_error] in Hq; [injection Hq; intros; subst; exact c_missing|destruct j; discriminate]. Qed.
Definition saved (n : Z) : list (text * text) * packing bool := ([(cycles_key, decimal n)], (unit_bits, some_shapes)).
Lemma b_saved : stored bit_scan false bit_volume bit_accepts files_300 run_b (saved 300).
Proof. unfold stored. do 2 eexists. split; [reflexivity|]. split; [vm_compute; reflexivity|]. split; [vm_compute; reflexivity|reflexivity]. Qed.
Lemma a_saved : stored bit_scan false bit_volume bit_accepts files_300 run_a (saved 200).
Proof. unfold stored. do 2 eexists. split; [reflexivity|]. split; [vm_compute; reflexivity|]. split; [vm_compute; reflexivity|reflexivity]. Qed.

(** A file which is not a RAMSNAP file. *)
Definition bad_files : text -> option text := fun n => if text_eqb n [98; 46] then Some [120] else None.
Lemma b_unreadable : unreadable bad_files run_b.
Proof.
  do 2 eexists. split; [reflexivity|]. split; [reflexivity|]. intros n (name & content & m & rest & v & tail & A & B & R & _).
  injection A; intros; subst. vm_compute in B. injection B; intros; subst. vm_compute in R. discriminate.
Qed.
(** Files of a and c without the file of b. *)
Definition gap_files : text -> option text := fun n => if text_eqb n [99; 46] then files_300 [97; 46] else if text_eqb n [98; 46] then None else files_300 n.
Lemma a_done_gap : performed_cycles gap_files run_a 200.
Proof. unfold performed_cycles. do 6 eexists. split; [reflexivity|]. split; [vm_compute; reflexivity|]. split; [vm_compute; reflexivity|]. split; [left; reflexivity|vm_compute; reflexivity]. Qed.
Lemma c_done_gap : performed_cycles gap_files run_c 200.
Proof. unfold performed_cycles. do 6 eexists. split; [reflexivity|]. split; [vm_compute; reflexivity|]. split; [vm_compute; reflexivity|]. split; [left; reflexivity|vm_compute; reflexivity]. Qed.
Lemma b_missing_gap : not_performed gap_files run_b.
Proof. eexists. split; [reflexivity|vm_compute; reflexivity]. Qed.
Lemma b_first_gap : first_unfinished gap_files [run_a; run_b; run_c] 1 run_b.
Proof.
  split; [reflexivity|]. split; [exact (not_performed_unfinished _ _ b_missing_gap)|].
  intros [|j] q Hj Hq; [|lia]. injection Hq; intros; subst. exists 200. split; [exact a_done_gap|cbn; lia].
Qed.
Lemma readable_gap : forall q, In q [run_a; run_b; run_c] -> ~ unreadable gap_files q.
Proof.
  intros q [<-|[<-|[<-|[]]]] (name & content & H1 & H2 & H3); [exact (H3 _ a_done_gap)| |exact (H3 _ c_done_gap)]. destruct b_missing_gap as (name' & A & B). congruence.
Qed.
Lemma a_saved_gap : stored bit_scan false bit_volume bit_accepts gap_files run_a (saved 200).
Proof. unfold stored. do 2 eexists. split; [reflexivity|]. split; [vm_compute; reflexivity|]. split; [vm_compute; reflexivity|reflexivity]. Qed.

(** Findings. *)
Lemma history_of runs events : (forall r, In r runs -> exists n, run_out r = Some n) -> Forall (Forall (proper_event bit_volume bit_accepts)) events ->
  bit_history runs (fold_left (fun files es => bit_invoke files (Some auto_name) None runs es) events no_files).
Proof.
  intros O F. assert (H : bit_history runs no_files) by (apply no_history; intros r Hr; destruct (O r Hr) as [n E]; exists n; split; [exact E|reflexivity]).
  revert H. generalize no_files. induction F as [|es events Fe F IH]; intros files H; cbn [fold_left]; [exact H|]. apply IH. apply one_more; auto.
Qed.
Definition files_210 : text -> option text := bit_invoke (bit_invoke no_files (Some auto_name) None [run_a] [stop_after 150]) (Some auto_name) None [run_a] [stop_after 60].
Lemma averaging_lost : bit_load files_210 (Some auto_name) None [run_a] = Done (Loaded bool 1 0 false None true [run_a]).
Proof. vm_compute. reflexivity. Qed.
Definition files_950 : text -> option text := bit_invoke no_files (Some auto_name) None [run_b] [stop_after 950].
Lemma history_950 : bit_history [run_b] files_950.
Proof. apply (history_of [run_b] [[stop_after 950]]); [intros r [<-|[]]; eexists; reflexivity|]. constructor; [|constructor]. constructor; [apply proper_stop; lia|constructor]. Qed.
Lemma b_950 : performed_cycles files_950 run_b 950.
Proof. unfold performed_cycles. do 6 eexists. split; [reflexivity|]. split; [vm_compute; reflexivity|]. split; [vm_compute; reflexivity|]. split; [left; reflexivity|vm_compute; reflexivity]. Qed.
Lemma stuck events : bit_invoke files_950 (Some auto_name) None [run_b] events = files_950.
Proof.
  set (l := bit_load files_950 (Some auto_name) None [run_b]).
  assert (E : l = Done (Loaded bool 0 950 true (Some (saved 950)) false [Run [98] (Some (Cycles (Some 50) None 100 0)) (Some [98; 46])])) by (vm_compute; reflexivity).
  unfold invoke. fold l. rewrite E. destruct events; reflexivity.
Qed.
Definition files_relaxed : text -> option text := bit_invoke no_files (Some auto_name) None [run_c] [stop_after 1].
Lemma relaxation_lost : bit_load files_relaxed (Some auto_name) None [run_c] = Done (Loaded bool 1 0 false None true [run_c]).
Proof. vm_compute. reflexivity. Qed.
Lemma outputs_differ : NoDup (map run_out [run_a; run_b; run_c]).
Proof. repeat constructor; cbn; intuition discriminate. Qed.
Lemma plain_b : plain [98]. Proof. repeat split; discriminate. Qed.
Lemma names_differ : NoDup (map run_name [run_a; run_b; run_c]).
Proof. repeat constructor; cbn; intuition discriminate. Qed.
