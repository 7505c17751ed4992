From Coq Require Import Reals ZArith List Bool Lia Lra Permutation.
From Verif Require Import GeomModel GeomProofs BoxModel BoxSpec BoxProofs PbcModel PbcSpec PbcTotalModel PbcProofs PackSpec PackSumProofs HistModel HistSpec HistProofs BondModel BondOrderProofs CorrModel CorrProofs CorrHistProofs CorrWholeProofs CorrMeanProofs CorrFindProofs CorrExamples BinsModel BinsSpec BinsProofs BinsAverageProofs.
Import ListNotations.
Local Open Scope R_scope.

(** Every particle is in one cell. *)
Definition in_flat (g : list dim) (first : vec) (fr : frame) (k i : nat) : bool := decide_at g k (Addition 0 (placed fr (vsub (fr_origin fr) first) i) 0).
Definition cell_number (g : list dim) (first : vec) (fr : frame) (k : nat) : nat := length (filter (in_flat g first fr k) (seq 0 (length (fr_shapes fr)))).
Lemma cell_number_counts nx ny nz first fr k : let g := cells nx ny nz in (k < size g)%nat -> periodic_frame fr -> counts (in_cell g (reshapeIndex g k) first fr) (cell_number g first fr k).
Proof.
  intros g Hk P. exists (filter (in_flat g first fr k) (seq 0 (length (fr_shapes fr)))). split; [apply NoDup_filter, seq_NoDup|]. split; [|reflexivity]. intros i. rewrite filter_In, in_seq, (cell_placed _ _ _ _ _ P). unfold in_flat. rewrite (decide_iff g k _ (cells_proper nx ny nz) Hk) by apply placed_range, P. cbn [a_pos]. split; intros [A B]; (split; [lia|exact B]).
Qed.
Lemma cell_numbers_sum nx ny nz first fr : let g := cells nx ny nz in periodic_frame fr -> list_sum (map (cell_number g first fr) (seq 0 (size g))) = length (fr_shapes fr).
Proof.
  intros g P. unfold cell_number. assert (G : forall l, list_sum (map (fun k => length (filter (in_flat g first fr k) l)) (seq 0 (size g))) = length l); [|rewrite G; apply seq_length].
  induction l as [|i l IH]; [apply list_sum_zero; reflexivity|].
  transitivity (list_sum (map (fun k => (if in_flat g first fr k i then 1 else 0) + length (filter (in_flat g first fr k) l))%nat (seq 0 (size g)))).
  { f_equal. apply map_ext. intros k. cbn [filter]. destruct (in_flat g first fr k i); reflexivity. }
  rewrite list_sum_add, IH. destruct (at_pos g (placed fr (vsub (fr_origin fr) first) i) (cells_proper nx ny nz) (placed_range nx ny nz first fr i P)) as (idx & L & E & R). cbn [length].
  transitivity (list_sum (map (fun k => if (k =? flattenIndex g idx)%nat then 1 else 0)%nat (seq 0 (size g))) + length l)%nat; [|rewrite sum_indicator by exact R; reflexivity]. f_equal. f_equal. apply map_ext. intros k. unfold in_flat, decide_at. cbn [a_pos]. rewrite E. reflexivity.
Qed.
Lemma Rsum_swap {A B} (f : A -> B -> R) l m : Rsum (fun a => Rsum (f a) m) l = Rsum (fun b => Rsum (fun a => f a b) l) m.
Proof.
  induction l as [|a l IH]; [symmetry; apply PackSumProofs.Rsum_zero; reflexivity|]. rewrite Rsum_cons, IH, <- Rsum_plus. apply PackSumProofs.Rsum_ext. intros b _. reflexivity.
Qed.
Lemma parts_numbers {E} nx ny nz k first (h : list (frame * E)) parts : let g := cells nx ny nz in (k < size g)%nat -> (forall x, In x h -> periodic_frame (fst x)) -> Forall2 (cell_count g (reshapeIndex g k) first) h parts -> parts = map (fun x => cell_number g first (fst x) k) h.
Proof.
  intros g Hk P F. induction F as [|x n h parts C F IH]; [reflexivity|]. cbn [map]. rewrite IH by (intros y I; apply P; right; exact I). f_equal. eapply counts_unique; [exact C|]. apply cell_number_counts; [exact Hk|]. apply P. left. reflexivity.
Qed.
Theorem density_total nx ny nz threads norm cmds st0 st first values : (1 < nx \/ 1 < ny \/ 1 < nz)%nat -> all_snapshots (ordered threads) cmds -> first_origin cmds first -> bins_create nx ny nz threads values = Some st0 -> bins_run (cells nx ny nz) (density_additions (cells nx ny nz) norm) cmds st0 = Some st ->
  list_sum (map snd (density_dump st)) = list_sum (map (fun h => length (fr_shapes (fst h))) (recent cmds)) /\
  (norm = AVG_COUNT -> Rsum amount (density_dump st) = Rsum (fun h => INR (length (fr_shapes (fst h)))) (recent cmds) / INR (length (recent cmds))) /\
  (norm = UNIT -> (forall h, In h (recent cmds) -> fr_shapes (fst h) <> []) -> Rsum amount (density_dump st) = INR (number_of_cells nx ny nz)).
Proof.
  intros H S Fo Cr Rn. destruct (density_spec nx ny nz threads norm values cmds H S) as (st0' & st' & Cr' & Rn' & Len & _ & X). rewrite Cr in Cr'. injection Cr' as <-. rewrite Rn in Rn'. injection Rn' as <-. destruct (recent_nonempty _ _ Fo) as [_ Ln]. set (g := cells nx ny nz) in *. set (M := number_of_cells nx ny nz) in *. assert (Sg : size g = M) by apply cells_size.
  assert (Pf : forall x, In x (recent cmds) -> periodic_frame (fst x)) by (intros x I; apply recent_in in I; apply (S _ _ I)).
  assert (Y : forall k, (k < M)%nat -> nth k (density_dump st) (None, 0%nat) = (Some (Rsum (fun h => weight M norm (fst h) * INR (cell_number g first (fst h) k)) (recent cmds) / INR (length (recent cmds))), list_sum (map (fun h => cell_number g first (fst h) k) (recent cmds)))).
  { intros k Hk. rewrite <- Sg in Hk. destruct (reshape_flat g k Hk) as [I E]. destruct (X first (reshapeIndex g k) Fo I) as (parts & F & N). rewrite E in N. rewrite N. rewrite (parts_numbers nx ny nz k first (recent cmds) parts Hk Pf F). fold g. f_equal. f_equal. f_equal. clear. induction (recent cmds) as [|x h IH]; [reflexivity|]. cbn [map combine]. rewrite !Rsum_cons, IH. reflexivity. }
  assert (Ed : density_dump st = map (fun k => nth k (density_dump st) (None, 0%nat)) (seq 0 M)).
  { apply (nth_ext _ _ (None, 0%nat) (None, 0%nat)); [rewrite map_length, seq_length; exact Len|]. intros k Hk. rewrite Len in Hk. rewrite (nth_mapped _ _ 0%nat) by (rewrite seq_length; exact Hk). rewrite seq_nth by exact Hk. reflexivity. }
  assert (N0 : INR (length (recent cmds)) <> 0) by (apply not_0_INR; lia).
  assert (Tot : Rsum amount (density_dump st) = Rsum (fun h => weight M norm (fst h) * INR (length (fr_shapes (fst h)))) (recent cmds) / INR (length (recent cmds))).
  { rewrite Ed, PackSumProofs.Rsum_map. rewrite (PackSumProofs.Rsum_ext _ (fun k => Rsum (fun h => weight M norm (fst h) * INR (cell_number g first (fst h) k)) (recent cmds) * / INR (length (recent cmds)))) by (intros k I; apply in_seq in I; rewrite Y by lia; reflexivity). rewrite Rsum_scaled, Rsum_swap. unfold Rdiv. f_equal. apply PackSumProofs.Rsum_ext. intros h I. rewrite <- (cell_numbers_sum nx ny nz first (fst h) (Pf h I)). fold g. rewrite Sg, INR_list_sum, PackSumProofs.Rsum_map. rewrite (PackSumProofs.Rsum_ext _ (fun k => INR (cell_number g first (fst h) k) * weight M norm (fst h))) by (intros; ring). rewrite Rsum_scaled. ring. }
  split; [|split].
  - rewrite Ed, map_map. rewrite (map_ext_in _ (fun k => list_sum (map (fun h => cell_number g first (fst h) k) (recent cmds)))) by (intros k I; apply in_seq in I; rewrite Y by lia; reflexivity). apply INR_eq. rewrite !INR_list_sum, !PackSumProofs.Rsum_map. rewrite (PackSumProofs.Rsum_ext _ (fun k => Rsum (fun h => INR (cell_number g first (fst h) k)) (recent cmds))) by (intros k _; rewrite INR_list_sum, PackSumProofs.Rsum_map; reflexivity). rewrite Rsum_swap. apply PackSumProofs.Rsum_ext. intros h I. rewrite <- (cell_numbers_sum nx ny nz first (fst h) (Pf h I)). fold g. rewrite Sg, INR_list_sum, PackSumProofs.Rsum_map. reflexivity.
  - intros ->. rewrite Tot. f_equal. apply PackSumProofs.Rsum_ext. intros h _. cbn [weight]. ring.
  - intros -> Ne. rewrite Tot. rewrite (PackSumProofs.Rsum_ext _ (fun _ => INR M)); [rewrite Rsum_const; field; exact N0|]. intros h I. cbn [weight]. specialize (Ne h I). field. apply not_0_INR. destruct (fr_shapes (fst h)); [contradiction|cbn; lia].
Qed.
(** Two threads. *)
Definition apart : frame := Frame cube (correction cube) vzero [(V3 (1 / 4) 0 0, mid); (V3 (3 / 4) 0 0, turned)].
Lemma apart_periodic : periodic_frame apart. Proof. split; [exact cube_constructed|]. intros p. apply getCorrection_terminates. Qed.
Definition interleaved : list (nat * event) := [(0%nat, Calculate 0); (1%nat, Calculate 1); (0%nat, Store 0); (1%nat, Store 1)].
Lemma interleaved_parallel : parallel 2 apart interleaved.
Proof.
  split; [exact apart_periodic|]. split; [repeat constructor|]. exists (fun t => [t]). split; [|apply Permutation_refl]. intros t Ht. destruct t as [|[|t]]; [reflexivity..|lia].
Qed.
Lemma apart_back i x y z : (i < 2)%nat -> fst (shape_at apart i) = V3 x y z -> 0 <= x < 1 -> 0 <= y < 1 -> 0 <= z < 1 -> moved_back vzero apart i (V3 x y z).
Proof.
  intros Hi E X Y Z. split; [intros [| |]; assumption|]. exists vzero. split; [exists 0%Z, 0%Z, 0%Z; unfold lattice_vector; apply vec_ext; cbn; ring|]. rewrite E. unfold relativeToAbsolute, cube. apply vec_ext; cbn; ring.
Qed.
Definition halves : list dim := cells 2 1 1.
Lemma half_located x j : (j < 2)%nat -> INR j / 2 <= x < (INR j + 1) / 2 -> located halves [j; 0; 0]%nat [x; 0; 0].
Proof.
  intros Hj X. split; [|reflexivity]. unfold halves, cells. cbn [combine]. constructor; [|constructor; [|constructor; [|constructor]]]; unfold in_bin, edge; cbn [d_bins d_min d_max fst snd Nat.max].
  - split; [exact Hj|]. split; [change (INR 2) with 2; lra|]. left. rewrite plus_INR. change (INR 1) with 1. change (INR 2) with 2. lra.
  - split; [lia|]. cbn [INR Nat.add]. split; [lra|left; lra].
  - split; [lia|]. cbn [INR Nat.add]. split; [lra|left; lra].
Qed.
Lemma apart_cell j : (j < 2)%nat -> cell_list halves [j; 0; 0]%nat vzero (apart, interleaved) [j].
Proof.
  intros Hj. set (x := fun i : nat => if (i =? 0)%nat then 1 / 4 else 3 / 4). assert (Ex : forall i, (i < 2)%nat -> fst (shape_at apart i) = V3 (x i) 0 0 /\ INR i / 2 <= x i < (INR i + 1) / 2 /\ 0 <= x i < 1) by (intros [|[|i]] Hi; [| |lia]; (split; [reflexivity|]); unfold x; cbn [Nat.eqb INR]; lra).
  assert (Lo : forall i, (i < 2)%nat -> moved_back vzero apart i (V3 (x i) 0 0) /\ located halves [i; 0; 0]%nat [x i; 0; 0]) by (intros i Hi; destruct (Ex i Hi) as (E & R & U); split; [apply apart_back; auto; lra|apply half_located; assumption]).
  split; [constructor; [intros []|constructor]|]. intros i. cbn [fst]. split.
  - intros [<-|[]]. destruct (Lo j Hj) as [M L]. split; [exact Hj|]. exists (V3 (x j) 0 0). auto.
  - intros [Hi (u & M & L)]. change (length (fr_shapes apart)) with 2%nat in Hi. left. destruct (Lo i Hi) as [M' L']. destruct (placed_moved vzero apart i apart_periodic) as (u0 & _ & _ & Un). rewrite (Un u M), <- (Un _ M') in L. cbn [vx vy vz] in L. pose proof (located_unique halves (cells_proper 2 1 1) _ _ _ L L') as Q. injection Q as ->. reflexivity.
Qed.
Theorem race : exists f c cmds st0 st, all_snapshots (parallel 2) cmds /\ (c < number_of_values f)%nat /\ bins_create 2 1 1 2 [0] = Some st0 /\ bins_run (cells 2 1 1) (average_additions f c) cmds st0 = Some st /\
  exists first parts, first_origin cmds first /\ Forall2 (cell_list (cells 2 1 1) [0; 0; 0]%nat first) (recent cmds) parts /\
    mean_over f c (recent cmds) parts = Some 1 /\ nth 0 (average_dump st) (None, 0%nat) = (Some 0, 1%nat).
Proof.
  set (f := FAxisCoordinate (V3 1 0 0) AX). set (cmds := [Snapshot apart interleaved]). exists f, 0%nat, cmds. assert (S : all_snapshots (parallel 2) cmds) by (intros fr e [E|[]]; injection E as <- <-; exact interleaved_parallel).
  destruct (parallel_spec 2 1 1 2 f 0 [0] cmds ltac:(lia) S) as (st0 & st & A & B & _ & _ & X). exists st0, st. split; [exact S|]. split; [cbn; lia|]. split; [exact A|]. split; [exact B|]. exists vzero, [[0%nat]]. assert (Fo : first_origin cmds vzero) by (exists apart, interleaved, []; split; reflexivity). split; [exact Fo|]. split; [constructor; [apply (apart_cell 0); lia|constructor]|].
  split; [unfold mean_over, sum_of; cbn; f_equal; field|]. destruct (X vzero [0; 0; 0]%nat Fo) as (parts & F & N); [repeat constructor|]. change (flattenIndex (cells 2 1 1) [0; 0; 0]%nat) with 0%nat in N. inversion F as [|? l ? ? C F']; subst. inversion F'; subst. assert (Pl : Permutation l [0%nat]) by (apply NoDup_Permutation; [apply C|constructor; [intros []|constructor]|]; intros i; rewrite (proj2 C i), <- (proj2 (apart_cell 0 ltac:(lia)) i); reflexivity). apply Permutation_sym, Permutation_length_1_inv in Pl. subst l. etransitivity; [exact N|]. cbn. f_equal. f_equal. field.
Qed.
