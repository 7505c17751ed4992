From Coq Require Import Reals ZArith List Bool Lia Lra Permutation.
From Verif Require Import GeomModel GeomProofs BoxModel BoxSpec BoxProofs PbcModel PbcSpec PbcTotalModel PbcProofs PackSpec PackSumProofs HistModel HistSpec HistProofs BondModel BondOrderProofs CorrModel CorrProofs CorrHistProofs CorrWholeProofs CorrMeanProofs CorrFindProofs BinsModel BinsSpec BinsProofs.
Import ListNotations.
Local Open Scope R_scope.

(** What is stored, and by which thread. *)
Fixpoint stored (f : shape_function) (c : nat) (fr : frame) (events : list (nat * event)) (values : list R) : list (nat * (nat * R)) :=
  match events with
  | [] => []
  | (_, Calculate i) :: rest => stored f c fr rest (calculate_values f (snd (shape_at fr i)))
  | (t, Store i) :: rest => (t, (i, nth c values 0)) :: stored f c fr rest values
  end.
Lemma additions_stored f c fr d events : forall values, fst (average_additions f c fr d events values) = map (fun x => Addition (fst x) (placed fr d (fst (snd x))) (snd (snd x))) (stored f c fr events values).
Proof.
  induction events as [|[t [i|i]] events IH]; intros values; cbn [average_additions stored map]; [reflexivity|apply IH|]. specialize (IH values). destruct (average_additions f c fr d events values) as [l v]. cbn [fst snd] in *. rewrite IH. reflexivity.
Qed.
Definition stores (e : event) : list nat := match e with Store i => [i] | Calculate _ => [] end.
Lemma stored_stores f c fr events : forall values, map (fun x => fst (snd x)) (stored f c fr events values) = flat_map stores (map snd events).
Proof. induction events as [|[t [i|i]] events IH]; intros values; cbn [stored map flat_map stores snd app]; [reflexivity|apply IH|]. cbn [fst snd]. rewrite IH. reflexivity. Qed.
Lemma stored_threads f c fr threads events : Forall (fun x => (fst x < threads)%nat) events -> forall values, Forall (fun x => (fst x < threads)%nat) (stored f c fr events values).
Proof. induction 1 as [|[t [i|i]] events Ht F IH]; intros values; cbn [stored]; [constructor|apply IH|]. constructor; [exact Ht|apply IH]. Qed.
Lemma sort_threads {A} threads (l : list (nat * A)) : Forall (fun x => (fst x < threads)%nat) l -> Permutation l (flat_map (fun t => filter (fun x => (fst x =? t)%nat) l) (seq 0 threads)).
Proof.
  induction 1 as [|x l Hx F IH].
  - assert (E : forall s, flat_map (fun t => filter (fun x : nat * A => (fst x =? t)%nat) []) s = []) by (induction s; cbn; auto). rewrite E. constructor.
  - assert (G : forall n m, Permutation (flat_map (fun t => filter (fun y => (fst y =? t)%nat) (x :: l)) (seq m n)) ((if (m <=? fst x)%nat && (fst x <? m + n)%nat then [x] else []) ++ flat_map (fun t => filter (fun y => (fst y =? t)%nat) l) (seq m n))).
    { induction n as [|n IHn]; intros m.
      - cbn [seq flat_map]. replace ((m <=? fst x)%nat && (fst x <? m + 0)%nat) with false; [constructor|]. symmetry. apply andb_false_iff. rewrite Nat.leb_gt, Nat.ltb_ge. lia.
      - cbn [seq flat_map]. specialize (IHn (S m)). cbn [filter]. destruct (fst x =? m)%nat eqn:Q.
        + apply Nat.eqb_eq in Q. replace ((m <=? fst x)%nat && (fst x <? m + S n)%nat) with true by (symmetry; apply andb_true_iff; rewrite Nat.leb_le, Nat.ltb_lt; lia). replace ((S m <=? fst x)%nat && (fst x <? S m + n)%nat) with false in IHn by (symmetry; apply andb_false_iff; rewrite Nat.leb_gt, Nat.ltb_ge; lia). cbn [app] in *. constructor. apply Permutation_app_head. exact IHn.
        + apply Nat.eqb_neq in Q. replace ((m <=? fst x)%nat && (fst x <? m + S n)%nat) with ((S m <=? fst x)%nat && (fst x <? S m + n)%nat) by (apply Bool.eq_iff_eq_true; rewrite !andb_true_iff, !Nat.leb_le, !Nat.ltb_lt; lia). etransitivity; [apply Permutation_app_head; exact IHn|]. apply Permutation_app_swap_app. }
    symmetry. etransitivity; [apply G|]. replace ((0 <=? fst x)%nat && (fst x <? 0 + threads)%nat) with true by (symmetry; apply andb_true_iff; rewrite Nat.leb_le, Nat.ltb_lt; lia). cbn [app]. constructor. symmetry. exact IH.
Qed.
Lemma iterations_stores l : flat_map stores (iterations l) = l. Proof. induction l as [|i l IH]; [reflexivity|]. cbn. f_equal. exact IH. Qed.
Lemma parallel_stores threads fr events : parallel threads fr events -> Permutation (flat_map stores (map snd events)) (seq 0 (length (fr_shapes fr))).
Proof.
  intros (_ & T & share & Sh & Pm). etransitivity; [|exact Pm]. etransitivity; [apply Permutation_flat_map, Permutation_map, (sort_threads threads); exact T|].
  assert (E : forall s, (forall t, In t s -> (t < threads)%nat) -> flat_map stores (map snd (flat_map (fun t => filter (fun x => (fst x =? t)%nat) events) s)) = flat_map share s).
  { induction s as [|t s IH]; intros H; [reflexivity|]. cbn [flat_map]. rewrite map_app, flat_map_app, IH by (intros u I; apply H; right; exact I). rewrite (Sh t) by (apply H; left; reflexivity). rewrite iterations_stores. reflexivity. }
  rewrite E; [reflexivity|]. intros t I. apply in_seq in I. lia.
Qed.
Lemma parallel_start threads fr events : parallel threads fr events -> events = [] \/ exists t i rest, events = (t, Calculate i) :: rest.
Proof.
  intros (_ & T & share & Sh & _). destruct events as [|[t e] rest]; [left; reflexivity|]. right. specialize (Sh t (Forall_inv T)). cbn [filter fst] in Sh. rewrite Nat.eqb_refl in Sh. cbn [map snd] in Sh. destruct (share t) as [|i l]; [discriminate|]. cbn in Sh. injection Sh as -> _. eauto.
Qed.
Lemma stored_independent threads f c fr events v v' : parallel threads fr events -> stored f c fr events v = stored f c fr events v'.
Proof. intros P. destruct (parallel_start _ _ _ P) as [->|(t & i & rest & ->)]; reflexivity. Qed.
(** The value stored for a particle. *)
Fixpoint lookup (i : nat) (l : list (nat * (nat * R))) : R := match l with [] => 0 | (_, (j, v)) :: l' => if (i =? j)%nat then v else lookup i l' end.
Lemma lookup_in l : NoDup (map (fun x => fst (snd x)) l) -> forall x, In x l -> lookup (fst (snd x)) l = snd (snd x).
Proof.
  induction l as [|[t [j v]] l IH]; intros N x; [intros []|]. cbn [map fst snd] in N. inversion N as [|? ? Nj N']; subst. intros [<-|I]; cbn [lookup fst snd]; [rewrite Nat.eqb_refl; reflexivity|]. destruct (fst (snd x) =? j)%nat eqn:Q; [|apply IH; assumption]. apply Nat.eqb_eq in Q. exfalso. apply Nj. rewrite <- Q. apply (in_map (fun x => fst (snd x))). exact I.
Qed.
Definition stored_value (f : shape_function) (c : nat) (h : frame * list (nat * event)) (i : nat) : R := lookup i (stored f c (fst h) (snd h) []).
Definition sched_of (f : shape_function) (c : nat) (first : vec) (fr : frame) (e : list (nat * event)) : schedule :=
  map (fun x => (fst x, (placed fr (vsub (fr_origin fr) first) (fst (snd x)), Some (snd (snd x))))) (stored f c fr e []).
Lemma parallel_sched threads f c first fr e : parallel threads fr e -> scheduled threads (flat_map (fun i => [(placed fr (vsub (fr_origin fr) first) i, Some (stored_value f c (fr, e) i))]) (seq 0 (length (fr_shapes fr)))) (sched_of f c first fr e).
Proof.
  intros P. pose proof (parallel_stores _ _ _ P) as Pm. rewrite <- (stored_stores f c fr e []) in Pm. assert (Nd : NoDup (map (fun x => fst (snd x)) (stored f c fr e []))) by (eapply Permutation_NoDup; [symmetry; exact Pm|apply seq_NoDup]).
  assert (E : sched_of f c first fr e = map (fun y => (fst y, (placed fr (vsub (fr_origin fr) first) (snd y), Some (stored_value f c (fr, e) (snd y))))) (map (fun x => (fst x, fst (snd x))) (stored f c fr e []))).
  { unfold sched_of. rewrite map_map. apply map_ext_in. intros x I. cbn [fst snd]. unfold stored_value. cbn [fst snd]. rewrite (lookup_in _ Nd x I). reflexivity. }
  rewrite E. apply (perm_loop threads (fun i => placed fr (vsub (fr_origin fr) first) i)).
  - rewrite map_map. exact Pm.
  - apply Forall_forall. intros y I. apply in_map_iff in I. destruct I as (x & <- & I). cbn [fst]. destruct P as (_ & T & _). pose proof (stored_threads f c fr threads e T []) as St. rewrite Forall_forall in St. apply St. exact I.
Qed.
Lemma create_values nx ny nz threads v v' st : bins_create nx ny nz threads v = Some st -> bins_create nx ny nz threads v' = Some (Bins (bn_first st) (bn_builder st) v').
Proof. unfold bins_create. destruct (build _ _ _); [|discriminate]. destruct (existsb _ _); [|discriminate]. intros E. injection E as <-. reflexivity. Qed.
Theorem parallel_spec nx ny nz threads f c values cmds : (1 < nx \/ 1 < ny \/ 1 < nz)%nat -> all_snapshots (parallel threads) cmds ->
  let g := cells nx ny nz in exists st0 st, bins_create nx ny nz threads values = Some st0 /\ bins_run g (average_additions f c) cmds st0 = Some st /\ length (average_dump st) = number_of_cells nx ny nz /\
    (recent cmds = [] -> forall k, (k < number_of_cells nx ny nz)%nat -> nth k (average_dump st) (None, 0%nat) = (Some 0, 0%nat)) /\
    forall first idx, first_origin cmds first -> index_of g idx -> exists parts, Forall2 (cell_list g idx first) (recent cmds) parts /\
      nth (flattenIndex g idx) (average_dump st) (None, 0%nat) =
      (if (size_of parts =? 0)%nat then None else Some (Rsum (fun x => Rsum (stored_value f c (fst x)) (snd x)) (combine (recent cmds) parts) / INR (size_of parts)), size_of parts).
Proof.
  intros H S g. destruct (proj1 (create_spec nx ny nz threads values) H) as (b0 & B & Cr). exists (Bins None b0 values). pose proof (cells_proper nx ny nz) as Pr. fold g in B, Pr.
  destruct (run_commands g threads (average_additions f c) (fun first fr e => additions (sched_of f c first fr e)) (parallel threads) b0 values cmds Pr B) as (st & R & O & Q); [|exact S|].
  { intros first fr e v P. split; [rewrite additions_stored, (stored_independent threads f c fr e v [] P); unfold additions, sched_of; rewrite map_map; reflexivity|]. pose proof (parallel_sched threads f c first fr e P) as Sc.
    apply (proj1 (schedule_tally g threads (fun i => [(placed fr (vsub (fr_origin fr) first) i, Some (stored_value f c (fr, e) i))]) (seq 0 (length (fr_shapes fr))) _ Pr ltac:(apply Forall_forall; intros i _; right; eexists _, _; split; [reflexivity|apply placed_range, P]) Sc)). }
  exists st. split; [exact Cr|]. split; [exact R|]. assert (Gd : good g threads (bn_builder st)) by (eapply run_good; [eapply build_good; exact B|exact Q]). destruct Gd as (Len & _). unfold average_dump. rewrite <- cells_size. fold g. split; [unfold dumpHistogram; destruct (_ =? 0)%nat; rewrite map_length; exact Len|]. split.
  - intros E. rewrite E in Q. cbn [map run] in Q. injection Q as <-. exact (proj2 (initial_dump AVERAGE g threads b0 B)).
  - intros first idx Fo I. destruct (recent_nonempty _ _ Fo) as [Eo Ln]. rewrite Eo in Q. cbn [the] in Q.
    destruct (cells_hits g idx first (stored_value f c) threads (recent cmds) (fun h => sched_of f c first (fst h) (snd h)) b0 (bn_builder st) nx ny nz eq_refl I B) as (_ & Sn & parts & F & N); [|exact Q|].
    { intros x Ix. apply recent_in in Ix. pose proof (S _ _ Ix) as P. split; [apply P|]. destruct x as [fr e]. apply parallel_sched. exact P. }
    exists parts. split; [exact F|]. rewrite dumped by (rewrite Len; apply flat_range; exact I). rewrite N, Sn. cbn [fst snd]. rewrite (proj2 (Nat.eqb_neq (length (recent cmds)) 0)) by lia. reflexivity.
Qed.
(** Exclusive iterations. *)
Definition two_steps (x : nat * nat) : list (nat * event) := [(fst x, Calculate (snd x)); (fst x, Store (snd x))].
Lemma steps_filter t order : filter (fun x => (fst x =? t)%nat) (flat_map two_steps order) = flat_map two_steps (filter (fun x => (fst x =? t)%nat) order).
Proof. induction order as [|x order IH]; [reflexivity|]. cbn [flat_map two_steps app filter fst]. rewrite IH. destruct (fst x =? t)%nat; reflexivity. Qed.
Lemma steps_snd order : map snd (flat_map two_steps order) = iterations (map snd order). Proof. unfold iterations. induction order as [|x order IH]; [reflexivity|]. cbn. rewrite IH. reflexivity. Qed.
Lemma exclusive_parallel threads fr e : exclusive threads fr e -> parallel threads fr e.
Proof.
  intros (order & (Pf & Pm & T) & ->). change (fun x : nat * nat => [(fst x, Calculate (snd x)); (fst x, Store (snd x))]) with two_steps. split; [exact Pf|]. split.
  - apply Forall_forall. intros x I. apply in_flat_map in I. destruct I as (y & Iy & I). rewrite Forall_forall in T. specialize (T y Iy). destruct I as [<-|[<-|[]]]; exact T.
  - exists (fun t => map snd (filter (fun x => (fst x =? t)%nat) order)). split; [intros t _; rewrite steps_filter, steps_snd; reflexivity|].
    etransitivity; [|exact Pm]. assert (E : forall s, flat_map (fun t => map snd (filter (fun x : nat * nat => (fst x =? t)%nat) order)) s = map snd (flat_map (fun t => filter (fun x => (fst x =? t)%nat) order) s)) by (induction s as [|t s IH]; [reflexivity|cbn [flat_map]; rewrite IH, map_app; reflexivity]).
    rewrite E. apply Permutation_map. symmetry. apply sort_threads. exact T.
Qed.
Lemma exclusive_stored f c fr order : forall v, stored f c fr (flat_map two_steps order) v = map (fun x => (fst x, (snd x, nth c (calculate_values f (snd (shape_at fr (snd x)))) 0))) order.
Proof. induction order as [|x order IH]; intros v; [reflexivity|]. cbn [flat_map two_steps app stored map]. rewrite IH. reflexivity. Qed.
Lemma values_component f c m : (c < number_of_values f)%nat -> nth c (calculate_values f m) 0 = component f c m.
Proof.
  destruct f as [v|ax i|ax|ax]; cbn [number_of_values calculate_values]; intros H.
  - destruct c; [reflexivity|lia].
  - destruct c; [reflexivity|lia].
  - destruct c as [|[|[|c]]]; [reflexivity..|lia].
  - destruct c as [|[|[|[|[|[|c]]]]]]; try lia; cbn; field.
Qed.
Lemma values_length f m : length (calculate_values f m) = number_of_values f. Proof. destruct f; reflexivity. Qed.
Lemma exclusive_value threads f c fr e i : (c < number_of_values f)%nat -> exclusive threads fr e -> (i < length (fr_shapes fr))%nat -> stored_value f c (fr, e) i = component f c (snd (shape_at fr i)).
Proof.
  intros Hc (order & (_ & Pm & _) & ->) Hi. change (fun x : nat * nat => [(fst x, Calculate (snd x)); (fst x, Store (snd x))]) with two_steps. unfold stored_value. cbn [fst snd]. rewrite exclusive_stored.
  assert (I : In i (map snd order)) by (apply (Permutation_in _ (Permutation_sym Pm)); apply in_seq; lia). clear Pm Hi. induction order as [|x order IH]; [destruct I|]. cbn [map lookup]. destruct (i =? snd x)%nat eqn:Q; [apply Nat.eqb_eq in Q; subst i; apply values_component; exact Hc|]. apply IH. destruct I as [E|I]; [apply Nat.eqb_neq in Q; congruence|exact I].
Qed.
Theorem average_spec nx ny nz threads f c values cmds : (1 < nx \/ 1 < ny \/ 1 < nz)%nat -> (c < number_of_values f)%nat -> all_snapshots (exclusive threads) cmds ->
  let g := cells nx ny nz in exists st0 st, bins_create nx ny nz threads values = Some st0 /\ bins_run g (average_additions f c) cmds st0 = Some st /\ length (average_dump st) = number_of_cells nx ny nz /\
    (recent cmds = [] -> forall k, (k < number_of_cells nx ny nz)%nat -> nth k (average_dump st) (None, 0%nat) = (Some 0, 0%nat)) /\
    forall first idx, first_origin cmds first -> index_of g idx -> exists parts, Forall2 (cell_list g idx first) (recent cmds) parts /\
      nth (flattenIndex g idx) (average_dump st) (None, 0%nat) = (mean_over f c (recent cmds) parts, size_of parts).
Proof.
  intros H Hc S g. destruct (parallel_spec nx ny nz threads f c values cmds H) as (st0 & st & A & B & C & D & X); [intros fr e I; apply exclusive_parallel, S, I|]. exists st0, st. repeat (split; [assumption|]). intros first idx Fo I. destruct (X first idx Fo I) as (parts & F & N). exists parts. split; [exact F|]. etransitivity; [exact N|]. unfold mean_over. f_equal. destruct (size_of parts =? 0)%nat; [reflexivity|]. f_equal. f_equal. unfold sum_of.
  assert (All : forall x, In x (recent cmds) -> exclusive threads (fst x) (snd x)) by (intros x Ix; apply S, recent_in; exact Ix). clear - F All Hc. induction F as [|x l h parts [_ M] F IH]; [reflexivity|]. cbn [combine]. rewrite !Rsum_cons, IH by (intros y Iy; apply All; right; exact Iy). f_equal. cbn [fst snd]. apply PackSumProofs.Rsum_ext. intros i Ii. apply M in Ii. destruct Ii as [Hi _]. destruct x as [fr e]. cbn [fst] in *. apply (exclusive_value threads); auto. apply (All (fr, e)). left. reflexivity.
Qed.
Theorem one_thread_exclusive fr e : parallel 1 fr e -> exclusive 1 fr e.
Proof.
  intros (Pf & T & share & Sh & Pm). exists (map (fun i => (0%nat, i)) (share 0%nat)). split.
  - split; [exact Pf|]. split; [rewrite map_map, map_id; cbn [seq flat_map] in Pm; rewrite app_nil_r in Pm; exact Pm|]. apply Forall_forall. intros x I. apply in_map_iff in I. destruct I as (i & <- & _). cbn. lia.
  - change (fun x : nat * nat => [(fst x, Calculate (snd x)); (fst x, Store (snd x))]) with two_steps. specialize (Sh 0%nat ltac:(lia)). assert (E : filter (fun x => (fst x =? 0)%nat) e = e) by (clear - T; induction T as [|x e Hx T IH]; [reflexivity|]; cbn [filter]; rewrite (proj2 (Nat.eqb_eq _ _)) by lia; rewrite IH; reflexivity). rewrite E in Sh.
    assert (E2 : e = map (fun y => (0%nat, y)) (map snd e)) by (clear - T; induction T as [|[t y] e Hx T IH]; [reflexivity|]; cbn [map snd]; rewrite <- IH; cbn [fst] in Hx; replace t with 0%nat by lia; reflexivity). rewrite E2, Sh. clear. induction (share 0%nat) as [|i l IH]; [reflexivity|]. cbn. do 2 f_equal. exact IH.
Qed.
Theorem parallel_counts nx ny nz threads f c values cmds : (1 < nx \/ 1 < ny \/ 1 < nz)%nat -> all_snapshots (parallel threads) cmds ->
  let g := cells nx ny nz in
  exists st0 st, bins_create nx ny nz threads values = Some st0 /\ bins_run (bins_grid nx ny nz) (average_additions f c) cmds st0 = Some st /\
    forall first idx, first_origin cmds first -> index_of g idx -> exists parts, Forall2 (cell_count g idx first) (recent cmds) parts /\
      snd (nth (flattenIndex g idx) (average_dump st) (None, 0%nat)) = list_sum parts.
Proof.
  intros H S g. rewrite grid_cells. destruct (parallel_spec nx ny nz threads f c values cmds H S) as (st0 & st & A & B & _ & _ & X). exists st0, st. split; [exact A|]. split; [exact B|]. intros first idx Fo I. destruct (X first idx Fo I) as (parts & F & N). exists (map (@length nat) parts). split; [exact (counts_parts g idx first (recent cmds) parts F)|exact (f_equal snd N)].
Qed.
