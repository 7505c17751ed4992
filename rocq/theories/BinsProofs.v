From Coq Require Import Reals ZArith List Bool Lia Lra Permutation.
From Verif Require Import GeomModel GeomProofs BoxModel BoxSpec BoxProofs PbcModel PbcSpec PbcTotalModel PbcProofs PackSpec HistModel HistSpec HistProofs BondModel BondOrderProofs CorrModel CorrProofs CorrHistProofs CorrWholeProofs CorrMeanProofs CorrFindProofs BinsModel BinsSpec.
Import ListNotations.
Local Open Scope R_scope.

(** The grid. *)
Lemma normalized_max n : normalizeNumBins n = Nat.max n 1. Proof. unfold normalizeNumBins. destruct n; cbn; lia. Qed.
Lemma grid_cells nx ny nz : bins_grid nx ny nz = cells nx ny nz. Proof. unfold bins_grid, cells. rewrite !normalized_max. reflexivity. Qed.
Lemma cells_proper nx ny nz : proper (cells nx ny nz). Proof. unfold cells, proper. repeat constructor; cbn [d_min d_max d_bins]; (lra || lia). Qed.
Lemma cells_size nx ny nz : size (cells nx ny nz) = number_of_cells nx ny nz. Proof. unfold size, cells, number_of_cells. cbn [fold_left d_bins]. lia. Qed.
Theorem create_spec nx ny nz threads values : ((1 < nx \/ 1 < ny \/ 1 < nz)%nat -> exists b, build (cells nx ny nz) threads 0 = Some b /\ bins_create nx ny nz threads values = Some (Bins None b values)) /\
  (~ (1 < nx \/ 1 < ny \/ 1 < nz)%nat -> bins_create nx ny nz threads values = None).
Proof.
  unfold bins_create. rewrite grid_cells. unfold build. rewrite (proj1 (create_some _ 0 (cells_proper nx ny nz))). cbn [existsb]. rewrite orb_false_r. split; intros H.
  - eexists. split; [reflexivity|]. assert (X : ((1 <? nx) || ((1 <? ny) || (1 <? nz)))%nat = true) by (rewrite !orb_true_iff, !Nat.ltb_lt; exact H). rewrite X. reflexivity.
  - assert (X : ((1 <? nx) || ((1 <? ny) || (1 <? nz)))%nat = false) by (rewrite !orb_false_iff, !Nat.ltb_ge; lia). rewrite X. reflexivity.
Qed.
(** Positions. *)
Lemma placed_moved first fr i : periodic_frame fr -> exists u, moved_back first fr i u /\ placed fr (vsub (fr_origin fr) first) i = [vx u; vy u; vz u] /\ forall u', moved_back first fr i u' -> u' = u.
Proof.
  intros [Cb T]. pose proof (proj1 (constructed_valid _) Cb) as V. unfold placed. set (p := vsub (fst (shape_at fr i)) (vsub (fr_origin fr) first)).
  assert (E : fr_correction fr p = correction (fr_box fr) p) by (eapply terminates_fun; [exact (T p)|apply getCorrection_terminates]). rewrite E.
  exists (absoluteToRelative (fr_box fr) (vadd p (correction (fr_box fr) p))). split; [|split; [reflexivity|]].
  - split; [apply correction_in_box; exact V|]. exists (correction (fr_box fr) p). split; [apply correction_lattice|]. apply abs_rel. exact V.
  - intros u [U (l & L & X)]. fold p in X. assert (A : absoluteToRelative (fr_box fr) (vadd p l) = u) by (rewrite <- X; apply rel_abs; exact V).
    assert (Q : l = correction (fr_box fr) p) by (apply (correction_unique (fr_box fr) p); auto; [apply correction_lattice|intros a; rewrite A; apply U|apply correction_in_box; exact V]). rewrite <- Q. symmetry. exact A.
Qed.
Lemma cell_placed g idx first fr i : periodic_frame fr -> (in_cell g idx first fr i <-> (i < length (fr_shapes fr))%nat /\ located g idx (placed fr (vsub (fr_origin fr) first) i)).
Proof.
  intros P. destruct (placed_moved first fr i P) as (u & M & E & Un). unfold in_cell. split.
  - intros [H (u' & M' & L)]. rewrite (Un u' M') in L. rewrite E. auto.
  - intros [H L]. split; [exact H|]. exists u. rewrite <- E. auto.
Qed.
Lemma placed_range nx ny nz first fr i : periodic_frame fr -> Forall2 in_range (cells nx ny nz) (placed fr (vsub (fr_origin fr) first) i).
Proof.
  intros P. destruct (placed_moved first fr i P) as (u & [M _] & -> & _). pose proof (M AX) as A. pose proof (M AY) as B. pose proof (M AZ) as C. cbn [vget] in *. unfold cells. constructor; [|constructor; [|constructor; [|constructor]]]; unfold in_range; cbn [d_min d_max]; lra.
Qed.
(** Histories of commands. *)
Lemma run_snoc g i s l b : run g i (s ++ [l]) b = match run g i s b with None => None | Some b' => match adds g l b' with None => None | Some b'' => Some (nextSnapshot i b'') end end.
Proof. revert b. induction s as [|x s IH]; intros b; cbn [app run]; [destruct (adds g l b); reflexivity|]. destruct (adds g x b); [apply IH|reflexivity]. Qed.
Lemma recent_snoc {E} (cmds : list (command E)) c : recent (cmds ++ [c]) = match c with Snapshot fr e => recent cmds ++ [(fr, e)] | Clear => [] end.
Proof. unfold recent. rewrite fold_left_app. reflexivity. Qed.
Lemma bins_snoc {E} g (loop : frame -> vec -> E -> list R -> list addition * list R) cmds c st : bins_run g loop (cmds ++ [c]) st =
  match bins_run g loop cmds st with None => None | Some st' => match c with Snapshot fr e => addSnapshot g loop fr e st' | Clear => Some (bins_clear st') end end.
Proof.
  revert st. induction cmds as [|x cmds IH]; intros st; cbn [app bins_run]; [destruct c; [destruct (addSnapshot _ _ _ _ _)|]; reflexivity|]. destruct x; [destruct (addSnapshot _ _ _ _ _); [apply IH|reflexivity]|apply IH].
Qed.
Definition origin_of {E} (l : list (frame * E)) : option vec := match l with [] => None | (fr, _) :: _ => Some (fr_origin fr) end.
Definition the {A} (d : A) (o : option A) : A := match o with Some x => x | None => d end.
Lemma recent_in {E} (cmds : list (command E)) h : In h (recent cmds) -> In (Snapshot (fst h) (snd h)) cmds.
Proof.
  induction cmds as [|c cmds IH] using rev_ind; [intros []|]. rewrite recent_snoc. destruct c as [fr e|]; [|intros []]. intros I. apply in_app_iff in I. apply in_app_iff. destruct I as [I|[<-|[]]]; [left; auto|right; left; reflexivity].
Qed.
Theorem run_commands {E} g threads (loop : frame -> vec -> E -> list R -> list addition * list R) (A : vec -> frame -> E -> list addition) (P : frame -> E -> Prop) b0 values cmds : proper g -> build g threads 0 = Some b0 ->
  (forall first fr e v, P fr e -> fst (loop fr (vsub (fr_origin fr) first) e v) = A first fr e /\ Forall (legal g threads) (A first fr e)) -> all_snapshots P cmds ->
  exists st, bins_run g loop cmds (Bins None b0 values) = Some st /\ bn_first st = origin_of (recent cmds) /\
    run g 0 (map (fun h => A (the vzero (origin_of (recent cmds))) (fst h) (snd h)) (recent cmds)) b0 = Some (bn_builder st).
Proof.
  intros Pr B H. induction cmds as [|c cmds IH] using rev_ind; intros S.
  - exists (Bins None b0 values). repeat split.
  - destruct IH as (st & R & O & Q); [intros fr e I; apply S, in_app_iff; auto|]. rewrite bins_snoc, R, recent_snoc. assert (G : good g threads (bn_builder st)) by (eapply run_good; [eapply build_good; exact B|exact Q]). destruct c as [fr e|].
    + assert (Pe : P fr e) by (apply S, in_app_iff; right; left; reflexivity). unfold addSnapshot. set (first := match bn_first st with Some o => o | None => fr_origin fr end). destruct (H first fr e (bn_values st) Pe) as [Ef Lf]. destruct (loop fr (vsub (fr_origin fr) first) e (bn_values st)) as [l v]. cbn [fst] in Ef. subst l.
      destruct (adds_column g threads _ Pr Lf _ G) as (b' & Ab & _). rewrite Ab. eexists. split; [reflexivity|]. cbn [bn_first bn_builder]. assert (Ef : Some first = origin_of (recent cmds ++ [(fr, e)])) by (unfold first; rewrite O; destruct (recent cmds) as [|[fr' e'] l]; reflexivity). split; [exact Ef|]. rewrite <- Ef. cbn [the]. rewrite map_app. cbn [map fst snd]. rewrite run_snoc.
      assert (Em : map (fun h => A first (fst h) (snd h)) (recent cmds) = map (fun h => A (the vzero (origin_of (recent cmds))) (fst h) (snd h)) (recent cmds)).
      { unfold first. rewrite O. destruct (recent cmds) as [|[fr' e'] l]; reflexivity. }
      rewrite Em, Q, Ab. reflexivity.
    + eexists. split; [reflexivity|]. split; [reflexivity|]. cbn [map bn_builder bins_clear run]. f_equal. symmetry. eapply cleared; eauto.
Qed.
(** Schedules. *)
Lemma cells_hits {E} g idx first value threads (h : list (frame * E)) (sched : frame * E -> schedule) b0 b nx ny nz : g = cells nx ny nz -> index_of g idx -> build g threads 0 = Some b0 ->
  (forall x, In x h -> periodic_frame (fst x) /\ scheduled threads (flat_map (fun i => [(placed (fst x) (vsub (fr_origin (fst x)) first) i, Some (value x i))]) (seq 0 (length (fr_shapes (fst x))))) (sched x)) ->
  run g 0 (map (fun x => additions (sched x)) h) b0 = Some b ->
  length (hb_total b) = size g /\ hb_snapshots b = length h /\ exists parts, Forall2 (cell_list g idx first) h parts /\
    nth (flattenIndex g idx) (hb_total b) vc0 = (Rsum (fun x => Rsum (value (fst x)) (snd x)) (combine h parts), size_of parts).
Proof.
  intros Eg I B H Rn. assert (P : proper g) by (subst g; apply cells_proper). set (F := fun (x : frame * E) i => [(placed (fst x) (vsub (fr_origin (fst x)) first) i, Some (value x i))]). set (its := fun x : frame * E => seq 0 (length (fr_shapes (fst x)))). set (hist := map (fun x => (x, sched x)) h).
  assert (Ar : Forall (arranged g threads F its) hist).
  { apply Forall_forall. intros y Iy. apply in_map_iff in Iy. destruct Iy as (x & <- & Ix). destruct (H x Ix) as [Pf S]. unfold arranged. cbn [fst snd]. split; [|exact S]. apply Forall_forall. intros i _. right. exists (placed (fst x) (vsub (fr_origin (fst x)) first) i), (Some (value x i)). split; [reflexivity|]. subst g. apply placed_range. exact Pf. }
  destruct (history_run g threads F its hist P Ar) as (h0 & hb & m & E0 & E1 & _ & L & _ & Sn & C). rewrite B in E0. injection E0 as <-. assert (Em : map additions (map snd hist) = map (fun x => additions (sched x)) h) by (unfold hist; rewrite !map_map; reflexivity). rewrite Em, Rn in E1. injection E1 as <-. split; [exact L|]. split; [rewrite Sn; unfold hist; apply map_length|].
  exists (map (hits g F its (flattenIndex g idx)) hist). pose proof (flat_range g idx I) as R. destruct (C _ R) as [X _]. rewrite X. clear X C Sn L. split.
  - clear Rn Em. unfold hist in *. clear hist. induction h as [|x h IH]; [constructor|]. cbn [map] in *. inversion Ar as [|? ? Ax Ar']; subst. constructor; [|apply IH; [intros y Iy; apply H; right; exact Iy|exact Ar']]. destruct (H x (or_introl eq_refl)) as [Pf _]. destruct Ax as [Td _]. cbn [fst] in Td. unfold hits, cell_list. cbn [fst]. split; [apply NoDup_filter, seq_NoDup|]. intros i.
    rewrite (hits_in _ _ _ _ i P R Td). rewrite flat_reshape by exact I. rewrite (cell_placed _ idx first (fst x) i Pf). unfold its. rewrite in_seq. split.
    + intros ((_ & A) & p & v & Ep & Lo). injection Ep as <- <-. split; [lia|exact Lo].
    + intros [A Lo]. split; [lia|]. eexists _, _. split; [reflexivity|exact Lo].
  - f_equal.
    + clear. unfold hist. clear hist. induction h as [|x h IH]; [reflexivity|]. cbn [map combine]. rewrite !Rsum_cons, IH. reflexivity.
    + unfold size_of. rewrite map_map. reflexivity.
Qed.

Lemma perm_loop threads (p : nat -> list R) (v : nat -> R) n (order : list (nat * nat)) : Permutation (map snd order) (seq 0 n) -> Forall (fun x => (fst x < threads)%nat) order ->
  scheduled threads (flat_map (fun i => [(p i, Some (v i))]) (seq 0 n)) (map (fun y => (fst y, (p (snd y), Some (v (snd y))))) order).
Proof.
  intros P T. split.
  - rewrite map_map. cbn [snd]. assert (E1 : forall l, flat_map (fun i => [(p i, Some (v i))]) l = map (fun i => (p i, Some (v i))) l) by (induction l as [|i l IH]; [reflexivity|cbn [flat_map map app]; rewrite IH; reflexivity]). rewrite E1, <- (map_map snd (fun i => (p i, Some (v i)))). apply Permutation_map. exact P.
  - apply Forall_forall. intros a I. apply in_map_iff in I. destruct I as (y & <- & I). cbn [fst]. rewrite Forall_forall in T. apply T. exact I.
Qed.
Lemma counts_parts {E} g idx first (h : list (frame * E)) parts : Forall2 (cell_list g idx first) h parts -> Forall2 (cell_count g idx first) h (map (@length nat) parts).
Proof. induction 1 as [|x l h parts [N M] F IH]; cbn [map]; constructor; [|exact IH]. exists l. auto. Qed.
Lemma sum_parts {E} (w : frame -> R) (h : list (frame * E)) (parts : list (list nat)) : Rsum (fun x => Rsum (fun _ => w (fst (fst x))) (snd x)) (combine h parts) = Rsum (fun x => w (fst (fst x)) * INR (snd x)) (combine h (map (@length nat) parts)).
Proof. revert parts. induction h as [|x h IH]; intros [|l parts]; try reflexivity. cbn [map combine]. rewrite !Rsum_cons, IH. cbn [fst snd]. rewrite Rsum_const. ring. Qed.
Lemma recent_nonempty {E} (cmds : list (command E)) first : first_origin cmds first -> origin_of (recent cmds) = Some first /\ (0 < length (recent cmds))%nat.
Proof. intros (fr & e & rest & -> & ->). split; [reflexivity|cbn; lia]. Qed.
Definition fresh_dump (d : list (option R * nat)) (n : nat) : Prop := length d = n /\ forall k, (k < n)%nat -> nth k d (None, 0%nat) = (Some 0, 0%nat).
Lemma initial_dump m g threads b0 : build g threads 0 = Some b0 -> fresh_dump (dumpHistogram 0 m b0) (size g).
Proof.
  intros B. destruct (build_good _ _ _ _ B) as (L & _). assert (S : hb_snapshots b0 = 0%nat) by (unfold build in B; destruct (create g 0); [injection B as <-; reflexivity|discriminate]). split; [unfold dumpHistogram; rewrite S; cbn [Nat.eqb]; rewrite map_length; exact L|].
  intros k Hk. rewrite dumped by (rewrite L; exact Hk). rewrite S. reflexivity.
Qed.
Theorem density_spec nx ny nz threads norm values cmds : (1 < nx \/ 1 < ny \/ 1 < nz)%nat -> all_snapshots (ordered threads) cmds ->
  let g := cells nx ny nz in exists st0 st, bins_create nx ny nz threads values = Some st0 /\ bins_run g (density_additions g norm) cmds st0 = Some st /\ length (density_dump st) = number_of_cells nx ny nz /\
    (recent cmds = [] -> forall k, (k < number_of_cells nx ny nz)%nat -> nth k (density_dump st) (None, 0%nat) = (Some 0, 0%nat)) /\
    forall first idx, first_origin cmds first -> index_of g idx -> exists parts, Forall2 (cell_count g idx first) (recent cmds) parts /\
      nth (flattenIndex g idx) (density_dump st) (None, 0%nat) =
      (Some (Rsum (fun x => weight (number_of_cells nx ny nz) norm (fst (fst x)) * INR (snd x)) (combine (recent cmds) parts) / INR (length (recent cmds))), list_sum parts).
Proof.
  intros H S g. destruct (proj1 (create_spec nx ny nz threads values) H) as (b0 & B & Cr). exists (Bins None b0 values). pose proof (cells_proper nx ny nz) as Pr. fold g in B, Pr.
  set (sched := fun first fr (e : list (nat * nat)) => map (fun y => (fst y, (placed fr (vsub (fr_origin fr) first) (snd y), Some (density_value g norm fr)))) e).
  assert (Ls : forall first fr e, ordered threads fr e -> scheduled threads (flat_map (fun i => [(placed fr (vsub (fr_origin fr) first) i, Some (density_value g norm fr))]) (seq 0 (length (fr_shapes fr)))) (sched first fr e)).
  { intros first fr e (_ & Pm & T). unfold sched. apply (perm_loop threads (fun i => placed fr (vsub (fr_origin fr) first) i) (fun _ => density_value g norm fr)); assumption. }
  destruct (run_commands g threads (density_additions g norm) (fun first fr e => additions (sched first fr e)) (ordered threads) b0 values cmds Pr B) as (st & R & O & Q); [|exact S|].
  { intros first fr e v Oe. split; [unfold density_additions, additions, sched; cbn [fst]; rewrite map_map; reflexivity|]. destruct Oe as (Pf & Rest). assert (Oe : ordered threads fr e) by (split; assumption).
    apply (proj1 (schedule_tally g threads (fun i => [(placed fr (vsub (fr_origin fr) first) i, Some (density_value g norm fr))]) (seq 0 (length (fr_shapes fr))) _ Pr ltac:(apply Forall_forall; intros i _; right; eexists _, _; split; [reflexivity|apply placed_range; exact Pf]) (Ls first fr e Oe))). }
  exists st. split; [exact Cr|]. split; [exact R|]. assert (Gd : good g threads (bn_builder st)) by (eapply run_good; [eapply build_good; exact B|exact Q]). destruct Gd as (Len & _). unfold density_dump. rewrite <- cells_size. fold g. split; [unfold dumpHistogram; destruct (_ =? 0)%nat; rewrite map_length; exact Len|]. split.
  - intros E. rewrite E in Q. cbn [map run] in Q. injection Q as <-. exact (proj2 (initial_dump SUM g threads b0 B)).
  - intros first idx Fo I. destruct (recent_nonempty _ _ Fo) as [Eo Ln]. rewrite Eo in Q. cbn [the] in Q.
    destruct (cells_hits g idx first (fun h _ => density_value g norm (fst h)) threads (recent cmds) (fun h => sched first (fst h) (snd h)) b0 (bn_builder st) nx ny nz eq_refl I B) as (_ & Sn & parts & F & N); [|exact Q|].
    { intros x Ix. apply recent_in in Ix. pose proof (S _ _ Ix) as Oe. split; [apply Oe|apply Ls; exact Oe]. }
    exists (map (@length nat) parts). split; [apply counts_parts; exact F|]. rewrite dumped by (rewrite Len; apply flat_range; exact I). rewrite N, Sn. cbn [fst snd]. rewrite (proj2 (Nat.eqb_neq _ _)) by lia. unfold size_of. rewrite <- sum_parts. reflexivity.
Qed.
