From Coq Require Import ZArith List Bool Lia.
From Verif Require Import OptModel TextModel TextProofs LinesModel ObsModel ObsSpec.
Import ListNotations.
Open Scope Z_scope.

Definition opt_list {A} (o : option A) : list A := match o with Some v => [v] | None => [] end.
Definition cols {A} (n : nat) (tbl : list (list A)) : list (list A) := map (fun j => flat_map (fun r => opt_list (nth_error r j)) tbl) (seq 0 n).

Lemma push_at_seq {A} (v : A) : forall n i s f, (i < n)%nat ->
  push_at i v (map f (seq s n)) = Some (map (fun j => if Nat.eqb j (s + i) then f j ++ [v] else f j) (seq s n)).
Proof.
  induction n as [|n IH]; intros i s f H; [lia|]. cbn [seq map]. destruct i as [|i]; cbn [push_at].
  - rewrite Nat.add_0_r, Nat.eqb_refl. do 2 f_equal. apply map_ext_in. intros j Hj. apply in_seq in Hj. destruct (Nat.eqb_spec j s); [lia|reflexivity].
  - rewrite IH by lia. cbn [obind]. destruct (Nat.eqb_spec s (s + S i)); [lia|]. do 2 f_equal. apply map_ext. intros j. replace (S s + i)%nat with (s + S i)%nat by lia. reflexivity.
Qed.
Lemma push_values_seq {A} n : forall (vs : list A) i f, (i + length vs <= n)%nat ->
  push_values i vs (map f (seq 0 n)) = Some ((i + length vs)%nat, map (fun j => f j ++ opt_list (if Nat.leb i j then nth_error vs (j - i) else None)) (seq 0 n)).
Proof.
  induction vs as [|v vs IH]; intros i f H; cbn [push_values].
  - rewrite Nat.add_0_r. do 2 f_equal. apply map_ext. intros j. destruct (Nat.leb i j); [destruct (j - i)%nat|]; cbn; rewrite app_nil_r; reflexivity.
  - cbn [length] in H. rewrite push_at_seq by lia. cbn [obind]. rewrite IH by lia. cbn [length]. do 2 f_equal; [lia|]. apply map_ext. intros j. cbn [Nat.add].
    destruct (Nat.eqb_spec j i) as [->|N].
    + destruct (Nat.leb_spec (S i) i); [lia|]. destruct (Nat.leb_spec i i); [|lia]. rewrite Nat.sub_diag. cbn. rewrite app_nil_r. reflexivity.
    + destruct (Nat.leb_spec (S i) j), (Nat.leb_spec i j); try lia; [|reflexivity]. replace (j - i)%nat with (S (j - S i)) by lia. reflexivity.
Qed.
Section proofs.
Variables (D P : Type) (show show_short : D -> list Z).
Notation observable := (observable D P).
Notation Ob_i := (ob_interval D P). Notation Ob_n := (ob_nominal D P).

Lemma push_observables_seq {A} (value : observable -> list A) obs n : forall os idxs i f, map (nth_error obs) idxs = map Some os -> (i + length (flat_map value os) <= n)%nat ->
  push_observables D P value obs idxs i (map f (seq 0 n)) =
    Some ((i + length (flat_map value os))%nat, map (fun j => f j ++ opt_list (if Nat.leb i j then nth_error (flat_map value os) (j - i) else None)) (seq 0 n)).
Proof.
  induction os as [|o os IH]; intros idxs i f E H; destruct idxs as [|x idxs]; try discriminate E; cbn [push_observables flat_map].
  - rewrite Nat.add_0_r. do 2 f_equal. apply map_ext. intros j. destruct (Nat.leb i j); [destruct (j - i)%nat|]; cbn; rewrite app_nil_r; reflexivity.
  - cbn [map] in E. injection E as Ex E. cbn [flat_map] in H. rewrite app_length in H. rewrite Ex. cbn [obind]. rewrite push_values_seq by lia. cbn [obind fst snd].
    rewrite (IH _ _ _ E) by lia. rewrite app_length. do 2 f_equal; [lia|]. apply map_ext. intros j. rewrite <- app_assoc. f_equal.
    destruct (Nat.leb_spec i j).
    + destruct (Nat.leb_spec (i + length (value o)) j).
      * assert (N : nth_error (value o) (j - i) = None) by (apply nth_error_None; lia). rewrite N. cbn [opt_list app]. rewrite nth_error_app2 by lia. do 2 f_equal. lia.
      * rewrite nth_error_app1 by lia. cbn [opt_list]. apply app_nil_r.
    + destruct (Nat.leb_spec (i + length (value o)) j); [lia|]. reflexivity.
Qed.
Lemma push_row {A} (value : observable -> list A) obs os idxs n tbl : map (nth_error obs) idxs = map Some os -> length (flat_map value os) = n ->
  push_observables D P value obs idxs 0 (cols n tbl) = Some (n, cols n (tbl ++ [flat_map value os])).
Proof.
  intros E L. unfold cols at 1. rewrite (push_observables_seq value obs n os idxs 0 _ E) by lia. rewrite L. do 2 f_equal. unfold cols. apply map_ext. intros j. rewrite flat_map_app. cbn [flat_map].
  rewrite app_nil_r, Nat.sub_0_r. reflexivity.
Qed.
Lemma cols_length {A} n (tbl : list (list A)) : length (cols n tbl) = n.
Proof. unfold cols. rewrite map_length, seq_length. reflexivity. Qed.
Lemma nth_column {A} j : forall (tbl : list (list A)) i r, Forall (fun r => (j < length r)%nat) tbl -> nth_error tbl i = Some r -> nth_error (flat_map (fun r => opt_list (nth_error r j)) tbl) i = nth_error r j.
Proof.
  induction tbl as [|r0 tbl IH]; intros i r F H; [destruct i; discriminate|]. inversion F as [|? ? L F']; subst. cbn [flat_map].
  destruct (nth_error r0 j) as [v|] eqn:E; [|apply nth_error_None in E; lia]. cbn [opt_list app]. destruct i as [|i]; cbn [nth_error] in *; [injection H as <-; symmetry; exact E|]. apply IH; auto.
Qed.
Lemma column_length {A} j : forall (tbl : list (list A)), Forall (fun r => (j < length r)%nat) tbl -> length (flat_map (fun r => opt_list (nth_error r j)) tbl) = length tbl.
Proof.
  induction 1 as [|r tbl L _ IH]; [reflexivity|]. cbn [flat_map]. destruct (nth_error r j) as [v|] eqn:E; [|apply nth_error_None in E; lia]. cbn [opt_list app length]. rewrite IH. reflexivity.
Qed.
Lemma row_of_values i : forall xs r, map (fun x => nth_error x i) xs = map Some r -> row_values i xs = Some (flat_map (fun t => t ++ [space]) r).
Proof.
  induction xs as [|x xs IH]; intros [|v r] E; try discriminate; [reflexivity|]. cbn [map] in E. injection E as Ex E. cbn [row_values flat_map]. rewrite Ex. cbn [obind]. rewrite (IH _ E). cbn [obind].
  rewrite <- app_assoc. reflexivity.
Qed.
Lemma nth_seq {A} (r : list A) : map (nth_error r) (seq 0 (length r)) = map Some r.
Proof.
  assert (G : forall pre, map (nth_error (pre ++ r)) (seq (length pre) (length r)) = map Some r).
  { induction r as [|x r IH]; intros pre; [reflexivity|]. cbn [length seq map]. rewrite nth_error_app2, Nat.sub_diag by lia. cbn [nth_error]. f_equal.
    specialize (IH (pre ++ [x])). rewrite <- app_assoc, app_length in IH. cbn [app length] in IH. rewrite Nat.add_1_r in IH. exact IH. }
  exact (G []).
Qed.
Lemma row_of_cols n (tbl : list (list (list Z))) i r : Forall (fun r => length r = n) tbl -> nth_error tbl i = Some r -> row_values i (cols n tbl) = Some (flat_map (fun t => t ++ [space]) r).
Proof.
  intros F H. apply row_of_values. unfold cols. rewrite map_map. assert (L : length r = n) by (rewrite Forall_forall in F; apply F; eapply nth_error_In; eauto).
  rewrite <- (nth_seq r), L. apply map_ext_in. intros j Hj. apply in_seq in Hj. apply nth_column; auto. eapply Forall_impl; [|exact F]. cbn. intros a Ha. lia.
Qed.

(** The collector holds the rows and the averaged states. *)
Definition holds (os : list (observable * kind)) (rows : list (Z * P)) (avs : list P) (c : collector D P) : Prop :=
  co_obs D P c = map fst os /\
  map (nth_error (map fst os)) (co_snapshot D P c) = map Some (chosen D P k_snapshot os) /\
  map (nth_error (map fst os)) (co_inline D P c) = map Some (chosen D P k_inline os) /\
  map (nth_error (map fst os)) (co_averaging D P c) = map Some (chosen D P k_averaging os) /\
  co_snapshotHeader D P c = names D P os /\
  co_averagingHeader D P c = flat_map Ob_i (chosen D P k_averaging os) /\
  co_cycles D P c = map fst rows /\
  co_snapshotValues D P c = cols (length (names D P os)) (map (fun r => cells D P show os (snd r)) rows) /\
  co_averagingValues D P c = cols (length (flat_map Ob_i (chosen D P k_averaging os))) (map (fun p => flat_map (fun o => ob_intervals D P o p) (chosen D P k_averaging os)) avs).

Lemma cols_none {A} n : cols n (@nil (list A)) = repeat [] n.
Proof. unfold cols. generalize 0%nat. induction n as [|n IH]; intros s; [reflexivity|]. cbn [seq map repeat]. f_equal. apply IH. Qed.
Lemma resize_none {A} n m : (n <= m)%nat -> @resize A m (repeat [] n) = repeat [] m.
Proof.
  intros H. unfold resize. rewrite firstn_all2 by (rewrite repeat_length; lia). rewrite repeat_length, <- repeat_app. f_equal. lia.
Qed.
Lemma front_none {A} n : front_empty (repeat (@nil A) n) = true.
Proof. destruct n; reflexivity. Qed.
Lemma chosen_snoc which os (o : observable) k : chosen D P which (os ++ [(o, k)]) = chosen D P which os ++ (if which k then [o] else []).
Proof. unfold chosen. rewrite filter_app, map_app. cbn [filter snd]. destruct (which k); reflexivity. Qed.
Lemma index_grow {A} (obs : list A) x idxs r : map (nth_error obs) idxs = map Some r -> map (nth_error (obs ++ [x])) idxs = map Some r.
Proof.
  revert r. induction idxs as [|i idxs IH]; intros [|v r] E; try discriminate; [reflexivity|]. cbn [map] in *. injection E as Ei E. rewrite (IH _ E). f_equal. rewrite nth_error_app1; [exact Ei|]. apply nth_error_Some. congruence.
Qed.
Lemma index_new {A} (obs : list A) x idxs r b : map (nth_error obs) idxs = map Some r -> map (nth_error (obs ++ [x])) (if b : bool then idxs ++ [length obs] else idxs) = map Some (r ++ if b then [x] else []).
Proof.
  intros E. apply (index_grow _ x) in E. destruct b; [|rewrite app_nil_r; exact E]. rewrite !map_app, E. cbn [map]. rewrite nth_error_app2, Nat.sub_diag by lia. reflexivity.
Qed.

Lemma add_one os o k c : holds os [] [] c -> exists c', addObservable D P o k c = Some c' /\ holds (os ++ [(o, k)]) [] [] c' /\ co_out D P c' = co_out D P c /\ co_last D P c' = co_last D P c.
Proof.
  intros (H1 & H2 & H3 & H4 & H5 & H6 & H7 & H8 & H9). cbn [map] in *. rewrite cols_none in H8. rewrite cols_none in H9. unfold addObservable. rewrite H8, H9, !front_none. cbn [andb].
  eexists. split; [reflexivity|]. split; [|split; reflexivity]. unfold holds. cbn [co_obs co_snapshot co_inline co_averaging co_snapshotHeader co_averagingHeader co_cycles co_snapshotValues co_averagingValues map].
  rewrite H1. unfold names. rewrite !map_app, !chosen_snoc, !flat_map_app. cbn [map fst]. rewrite (cols_none (A := list Z)), (cols_none (A := D)), H5, H6.
  split; [reflexivity|]. split; [apply index_new; exact H2|]. split; [apply index_new; exact H3|]. split; [apply index_new; exact H4|].
  split; [destruct (k_snapshot k); cbn [flat_map]; rewrite ?app_nil_r; reflexivity|].
  split; [destruct (k_averaging k); cbn [flat_map]; rewrite ?app_nil_r; reflexivity|].
  split; [exact H7|].
  split.
  - destruct (k_snapshot k); cbn [flat_map]; rewrite ?app_nil_r; [|reflexivity]. apply resize_none. rewrite app_length. unfold names. lia.
  - destruct (k_averaging k); cbn [flat_map]; rewrite ?app_nil_r; [|reflexivity]. apply resize_none. rewrite app_length. lia.
Qed.
Lemma add_all : forall new os c, holds os [] [] c -> exists c', with_observables D P new c = Some c' /\ holds (os ++ new) [] [] c' /\ co_out D P c' = co_out D P c /\ co_last D P c' = co_last D P c.
Proof.
  induction new as [|[o k] new IH]; intros os c H; [exists c; rewrite app_nil_r; auto|]. cbn [with_observables]. destruct (add_one os o k c H) as (c1 & E1 & H1 & O1 & L1). rewrite E1. cbn [obind].
  destruct (IH _ _ H1) as (c2 & E2 & H2 & O2 & L2). exists c2. rewrite <- app_assoc in H2. cbn [app] in H2. repeat (split; [congruence || assumption|]). congruence.
Qed.
Lemma holds_none : holds [] [] [] (no_collector D P).
Proof. unfold holds. cbn. repeat split. Qed.

Definition all_regular (os : list (observable * kind)) : Prop := Forall (fun ok => regular D P (fst ok)) os.
Lemma chosen_regular which os : all_regular os -> Forall (regular D P) (chosen D P which os).
Proof.
  intros F. apply Forall_forall. intros o H. unfold chosen in H. apply in_map_iff in H. destruct H as (ok & <- & H). apply filter_In in H. unfold all_regular in F. rewrite Forall_forall in F. apply F. tauto.
Qed.
Lemma cells_length os p : all_regular os -> length (cells D P show os p) = length (names D P os).
Proof.
  intros F. apply (chosen_regular k_snapshot) in F. unfold cells, names. induction F as [|o l R _ IH]; [reflexivity|]. cbn [flat_map]. rewrite !app_length, IH. destruct (R p) as [-> ->] || destruct (R p) as [R1 R2].
  - rewrite map_length. destruct (R p) as [-> _]. lia.
Qed.
Lemma values_length os p : all_regular os -> length (flat_map (fun o => ob_intervals D P o p) (chosen D P k_averaging os)) = length (flat_map Ob_i (chosen D P k_averaging os)).
Proof.
  intros F. apply (chosen_regular k_averaging) in F. induction F as [|o l R _ IH]; [reflexivity|]. cbn [flat_map]. rewrite !app_length, IH. destruct (R p) as [-> _]. reflexivity.
Qed.
Lemma rows_regular os rows : all_regular os -> Forall (fun r => length r = length (names D P os)) (map (fun r : Z * P => cells D P show os (snd r)) rows).
Proof. intros F. apply Forall_forall. intros x H. apply in_map_iff in H. destruct H as (r & <- & _). apply cells_length. exact F. Qed.
Lemma row_printed os rows avs c i r : all_regular os -> holds os rows avs c -> nth_error rows i = Some r -> doPrintSnapshotValues D P c i = Some (row_line D P show os r).
Proof.
  intros F (H1 & H2 & H3 & H4 & H5 & H6 & H7 & H8 & H9) N. unfold doPrintSnapshotValues. rewrite H7, H8. rewrite (map_nth_error fst _ _ N). cbn [obind].
  rewrite (row_of_cols _ _ i (cells D P show os (snd r))); [|apply rows_regular; exact F|apply (map_nth_error (fun r : Z * P => cells D P show os (snd r))); exact N].
  cbn [obind]. unfold row_line, line_of. cbn [flat_map]. rewrite <- !app_assoc. reflexivity.
Qed.

Lemma snapshot_added os rows avs c cy p : all_regular os -> holds os rows avs c -> exists c', addSnapshot D P show p cy c = Some c' /\ holds os (rows ++ [(cy, p)]) avs c' /\
  co_out D P c' = (match co_out D P c with Some t => Some (t ++ row_line D P show os (cy, p)) | None => None end) /\
  co_last D P c' = (match co_out D P c with Some _ => cy | None => co_last D P c end).
Proof.
  intros F H. pose proof H as (H1 & H2 & H3 & H4 & H5 & H6 & H7 & H8 & H9). unfold addSnapshot. rewrite H8, H1.
  rewrite (push_row (snapshot_cells D P show p) _ _ _ _ _ H2 (cells_length os p F)). cbn [obind fst snd]. rewrite cols_length, Nat.eqb_refl.
  set (c1 := Collector D P _ _ _ _ _ _ _ _ _ (co_out D P c) (co_last D P c)).
  assert (K : holds os (rows ++ [(cy, p)]) avs c1).
  { unfold holds, c1. cbn [co_obs co_snapshot co_inline co_averaging co_snapshotHeader co_averagingHeader co_cycles co_snapshotValues co_averagingValues].
    rewrite !map_app. cbn [map fst snd]. rewrite H7. repeat (split; [assumption || reflexivity|]). assumption. }
  destruct (co_out D P c) as [t|] eqn:Eo.
  - assert (R : doPrintSnapshotValues D P c1 (length (co_cycles D P c1) - 1) = Some (row_line D P show os (cy, p))).
    { apply (row_printed os (rows ++ [(cy, p)]) avs); auto. unfold c1. cbn [co_cycles]. rewrite H7, app_length, map_length. cbn [length]. replace (length rows + 1 - 1)%nat with (length rows) by lia.
      rewrite nth_error_app2, Nat.sub_diag by lia. reflexivity. }
    rewrite R. cbn [obind]. eexists. split; [reflexivity|]. split; [exact K|]. split; reflexivity.
  - eexists. split; [reflexivity|]. split; [exact K|]. unfold c1. cbn [co_out co_last]. split; reflexivity.
Qed.
Lemma average_added os rows avs c p : all_regular os -> holds os rows avs c -> exists c', addAveragingValues D P p c = Some c' /\ holds os rows (avs ++ [p]) c' /\ co_out D P c' = co_out D P c /\ co_last D P c' = co_last D P c.
Proof.
  intros F H. pose proof H as (H1 & H2 & H3 & H4 & H5 & H6 & H7 & H8 & H9). unfold addAveragingValues. rewrite H9, H1.
  rewrite (push_row (fun o => ob_intervals D P o p) _ _ _ _ _ H4 (values_length os p F)). cbn [obind fst snd]. rewrite cols_length, Nat.eqb_refl. eexists. split; [reflexivity|]. split; [|split; reflexivity].
  unfold holds. cbn [co_obs co_snapshot co_inline co_averaging co_snapshotHeader co_averagingHeader co_cycles co_snapshotValues co_averagingValues]. rewrite map_app. cbn [map]. repeat (split; [assumption || reflexivity|]). reflexivity.
Qed.
Lemma cols_cleared {A B} n (tbl : list (list A)) : map (fun _ => @nil B) (cols n tbl) = cols n [].
Proof. unfold cols. rewrite map_map. reflexivity. Qed.
Lemma cleared os rows avs c : holds os rows avs c -> holds os [] [] (clear D P c).
Proof.
  intros (H1 & H2 & H3 & H4 & H5 & H6 & H7 & H8 & H9). unfold holds, clear. cbn [co_obs co_snapshot co_inline co_averaging co_snapshotHeader co_averagingHeader co_cycles co_snapshotValues co_averagingValues map].
  rewrite H8, H9, !cols_cleared. repeat (split; [assumption || reflexivity|]). reflexivity.
Qed.
Lemma last_snoc (rs : list (Z * P)) r n : last_cycle P (r :: rs) n = last_cycle P rs (fst r).
Proof. unfold last_cycle. cbn [rev]. destruct (rev rs); reflexivity. Qed.
Lemma events_held os : all_regular os -> forall es rows avs c, holds os rows avs c -> exists c', after D P show es c = Some c' /\
  holds os (since P (fun e => match e with Snapshot _ c p => [(c, p)] | _ => [] end) rows es) (since P (fun e => match e with Average _ p => [p] | _ => [] end) avs es) c' /\
  co_out D P c' = (match co_out D P c with Some t => Some (t ++ flat_map (row_line D P show os) (all_snapshots P es)) | None => None end) /\
  co_last D P c' = (match co_out D P c with Some _ => last_cycle P (all_snapshots P es) (co_last D P c) | None => co_last D P c end).
Proof.
  intros F. induction es as [|e es IH]; intros rows avs c H.
  { exists c. cbn. split; [reflexivity|]. split; [exact H|]. destruct (co_out D P c); [rewrite app_nil_r|]; auto. }
  cbn [after]. destruct e as [cy p|p|]; cbn [happen since].
  - destruct (snapshot_added os rows avs c cy p F H) as (c1 & -> & H1 & O1 & L1). cbn [obind]. destruct (IH _ _ _ H1) as (c2 & E & H2 & O2 & L2). exists c2. split; [exact E|]. rewrite app_nil_r. split; [exact H2|].
    rewrite O2, L2, O1, L1. destruct (co_out D P c); [|auto]. unfold all_snapshots. cbn [flat_map app]. rewrite last_snoc. cbn [fst]. rewrite <- app_assoc. auto.
  - destruct (average_added os rows avs c p F H) as (c1 & -> & H1 & O1 & L1). cbn [obind]. destruct (IH _ _ _ H1) as (c2 & E & H2 & O2 & L2). exists c2. split; [exact E|]. rewrite app_nil_r. split; [exact H2|].
    rewrite O2, L2, O1, L1. unfold all_snapshots. cbn [flat_map app]. auto.
  - cbn [obind]. destruct (IH _ _ _ (cleared _ _ _ _ H)) as (c2 & E & H2 & O2 & L2). exists c2. split; [exact E|]. split; [exact H2|]. rewrite O2, L2. unfold clear. cbn [co_out co_last]. unfold all_snapshots. cbn [flat_map app]. auto.
Qed.

Lemma header_printed os rows avs c : holds os rows avs c -> header_text D P c ++ [newline] = header_line D P os.
Proof. intros (H1 & H2 & H3 & H4 & H5 & H6 & H7 & H8 & H9). unfold header_text, header_line, line_of. rewrite H5. reflexivity. Qed.
Lemma rows_printed os rows avs c : all_regular os -> holds os rows avs c -> forall n i, (i + n <= length rows)%nat -> print_rows D P c i n = Some (flat_map (row_line D P show os) (firstn n (skipn i rows))).
Proof.
  intros F H. induction n as [|n IH]; intros i L; [reflexivity|]. cbn [print_rows]. destruct (nth_error rows i) as [r|] eqn:E; [|apply nth_error_None in E; lia].
  rewrite (row_printed os rows avs c i r F H E). cbn [obind]. rewrite IH by lia. cbn [obind].
  assert (S : skipn i rows = r :: skipn (S i) rows).
  { clear -E. revert i E. induction rows as [|x rows IH]; intros i E; [destruct i; discriminate|]. destruct i as [|i]; [injection E as ->; reflexivity|]. cbn [skipn]. cbn [nth_error] in E. rewrite (IH _ E). reflexivity. }
  rewrite S. reflexivity.
Qed.
Lemma table_printed os rows avs c h : all_regular os -> names D P os <> [] -> holds os rows avs c -> printSnapshots D P c h = Some ((if h then header_line D P os else []) ++ flat_map (row_line D P show os) rows).
Proof.
  intros F N H. pose proof H as (H1 & H2 & H3 & H4 & H5 & H6 & H7 & H8 & H9). unfold printSnapshots. rewrite H8, H7, map_length.
  assert (is_nil (cols (length (names D P os)) (map (fun r : Z * P => cells D P show os (snd r)) rows)) = false) as -> by (destruct (names D P os); [contradiction N; reflexivity|reflexivity]).
  assert (forallb (fun x => Nat.eqb (length x) (length rows)) (cols (length (names D P os)) (map (fun r : Z * P => cells D P show os (snd r)) rows)) = true) as ->.
  { apply forallb_forall. intros x Hx. unfold cols in Hx. apply in_map_iff in Hx. destruct Hx as (j & <- & Hj). apply in_seq in Hj. apply Nat.eqb_eq. rewrite column_length, map_length; [reflexivity|].
    eapply Forall_impl; [|apply rows_regular; exact F]. cbn. intros a Ha. lia. }
  cbn [negb andb]. rewrite (rows_printed os rows avs c F H) by lia. cbn [obind]. rewrite firstn_all. rewrite <- (header_printed os rows avs c H). reflexivity.
Qed.
Lemma no_columns os rows avs c h : names D P os = [] -> holds os rows avs c -> printSnapshots D P c h = None.
Proof. intros N (H1 & H2 & H3 & H4 & H5 & H6 & H7 & H8 & H9). unfold printSnapshots. rewrite H8, N. reflexivity. Qed.
End proofs.
