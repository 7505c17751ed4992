From Coq Require Import ZArith List Bool Lia.
From Verif Require Import OptModel TextModel TextProofs RamsnapModel RamsnapSpec RamsnapProofs RamsnapFinalProofs LoadModel LoadSpec LoadProofs LoadRunProofs.
Import ListNotations.
Open Scope Z_scope.

Lemma nth_split {A} (r : A) rs : forall l i, skipn i l = r :: rs -> nth_error l i = Some r /\ skipn (S i) l = rs.
Proof.
  induction l as [|x l IH]; intros [|i] H; cbn [skipn nth_error] in *; try discriminate; [injection H; intros; subst; auto|]. exact (IH i H).
Qed.

Section history.
Context {D : Type} (show : D -> text) (scan : text -> option (D * text)) (zero : D) (hasVolume : list D -> bool) (accepts : list D -> list (list D * list D) -> bool).
Hypothesis (C : exact_codec show scan).
Notation load := (loadPacking D scan zero hasVolume accepts).
Notation stored := (stored scan zero hasVolume accepts).
Notation perform := (performRuns D show).
Notation proper_event := (proper_event hasVolume accepts).
Context (runs : list run).
Hypothesis (P : Forall proper_run runs) (ND : NoDup (map run_out runs)) (NE : runs <> []).

Definition kept (files : fs) (q : run) : Prop := finished files q /\ exists p, stored files q p.
Definition begun (files : fs) (q : run) : Prop := not_performed files q \/ exists n p, performed_cycles files q n /\ stored files q p.
Definition at_run (files : fs) (i : nat) : Prop :=
  (i <= length runs)%nat /\ (forall j q, (j < i)%nat -> nth_error runs j = Some q -> kept files q) /\
  (forall q, nth_error runs i = Some q -> begun files q) /\ (forall j q, (i < j)%nat -> nth_error runs j = Some q -> not_performed files q).

Lemma ordered_aux m n : (forall n, 0 <= n -> clean_map (map_set cycles_key (decimal n) m)) -> 0 <= n -> map_find cycles_key (map_set cycles_key (decimal n) m) = Some (decimal n).
Proof.
  intros H N. destruct (H n N) as (_ & O & _). apply (find_In _ _ _ O). clear O H. induction m as [|[k' v'] m IH]; cbn [map_set]; [left; auto|].
  destruct (text_ltb cycles_key k'); [left; auto|]. destruct (text_eqb cycles_key k') eqn:E; [left; auto|]. right. auto.
Qed.
Lemma not_performed_ext (files files' : fs) q : (forall name, run_out q = Some name -> files' name = files name) -> not_performed files q -> not_performed files' q.
Proof. intros E (name & A & B). exists name. split; [auto|]. rewrite E; auto. Qed.
Lemma performed_ext (files files' : fs) q n : (forall name, run_out q = Some name -> files' name = files name) -> performed_cycles files q n -> performed_cycles files' q n.
Proof. intros E (name & content & m & rest & v & tail & A & B & H). exists name, content, m, rest, v, tail. split; [auto|]. rewrite E; auto. Qed.
Lemma stored_ext (files files' : fs) q p : (forall name, run_out q = Some name -> files' name = files name) -> stored files q p -> stored files' q p.
Proof. intros E (name & content & A & B & H). exists name, content. split; [auto|]. rewrite E; auto. Qed.
Lemma kept_ext (files files' : fs) q : (forall name, run_out q = Some name -> files' name = files name) -> kept files q -> kept files' q.
Proof. intros E [(n & A & B) [p S]]. split; [exists n; split; [exact (performed_ext _ _ _ _ E A)|exact B]|]. exists p. exact (stored_ext _ _ _ _ E S). Qed.

(** A snapshot is stored for one run, and the files of other runs are not changed. *)
Lemma store_ok (files : fs) i r r' total e : nth_error runs i = Some r -> run_out r' = run_out r -> 0 <= total < 2 ^ 64 -> proper_event e ->
  exists files', storeSnapshot D show files r' total e = Some files' /\ performed_cycles files' r total /\ (exists p, stored files' r p) /\
    forall j q, j <> i -> nth_error runs j = Some q -> forall name, run_out q = Some name -> files' name = files name.
Proof.
  intros Hi Ho Ht (_ & M & K & V & A). pose proof (proj1 (Forall_forall _ _) P r (nth_error_In _ _ Hi)) as [[name En] _].
  unfold storeSnapshot. rewrite Ho, En.
  destruct (stored_file D show scan zero hasVolume _ _ _ C (M total ltac:(lia)) K V) as (content & W & R). rewrite W. cbn [obind].
  eexists. split; [reflexivity|].
  set (files' := fun n => if text_eqb n name then Some content else files n).
  assert (F' : files' name = Some content) by (unfold files'; rewrite text_eqb_refl; reflexivity).
  assert (S : stored files' r (map_set cycles_key (decimal total) (ev_aux D e), ev_packing D e)).
  { exists name, content. cbn [fst snd]. auto. }
  split; [|split; [exists (map_set cycles_key (decimal total) (ev_aux D e), ev_packing D e); exact S|]].
  - apply (restored_cycles _ _ _ _ _ _ _ _ S). cbn [fst]. exists (decimal total), []. split; [apply ordered_aux; auto; lia|].
    pose proof (extract_decimal total [] Ht I) as X. rewrite app_nil_r in X. exact X.
  - intros j q Hj Hq n Hn. unfold files'. destruct (text_eqb n name) eqn:E; [|reflexivity]. exfalso. apply text_eqb_eq in E. subst n. apply Hj.
    rewrite NoDup_nth_error in ND. apply ND; [apply nth_error_Some; rewrite (map_nth_error run_out _ _ Hq); discriminate|].
    rewrite (map_nth_error run_out _ _ Hq), (map_nth_error run_out _ _ Hi). congruence.
Qed.

Definition made (offset : Z) (r : run) (e : event D) : option Z :=
  match run_cycles r with
  | Some c => if integrates c then
                let all := value_or0 (cy_thermalization c) + value_or0 (cy_averaging c) in
                Some (wrap (offset + (if ev_interrupted D e then Z.min (ev_cycles D e) all else all)))
              else None
  | None => Some (wrap (offset + ev_cycles D e))
  end.
Lemma perform_cons (files : fs) offset r rs e events : perform files offset (r :: rs) (e :: events) =
  match made offset r e with
    | None => files
    | Some total => match storeSnapshot D show files r total e with
                    | None => files
                    | Some files' => if ev_interrupted D e then files' else perform files' 0 rs events
                    end
    end.
Proof. reflexivity. Qed.

(** What the run still to be made needs to be, for the run as given. *)
Definition remaining (offset : Z) (r r' : run) : Prop :=
  run_out r' = run_out r /\ (run_cycles r' = None <-> run_cycles r = None) /\ 0 <= offset /\ 0 <= thermalisation r' /\ 0 <= averaging r' /\
  match run_cycles r with
  | None => offset = 0
  | Some _ => thermalisation r + averaging r <= offset + thermalisation r' + averaging r' < 2 ^ 64
  end.
Lemma whole_remains r : proper_run r -> remaining 0 r r.
Proof. intros (_ & A & B & K & _). unfold remaining. repeat split; auto; try lia. destruct (run_cycles r); lia. Qed.

Lemma made_range offset r r' e total : proper_run r -> remaining offset r r' -> proper_event e -> made offset r' e = Some total ->
  0 <= total < 2 ^ 64 /\ (ev_interrupted D e = false -> thermalisation r + averaging r <= total).
Proof.
  intros (_ & Pr1 & Pr2 & _) (R1 & R2 & R3 & R4 & R5 & R6) [F0 _]. unfold made. destruct (run_cycles r') as [c'|] eqn:E'.
  - destruct (integrates c'); [|discriminate]. cbv zeta.
    assert (T' : thermalisation r' = value_or0 (cy_thermalization c')) by (unfold thermalisation; rewrite E'; reflexivity).
    assert (T'' : averaging r' = value_or0 (cy_averaging c')) by (unfold averaging; rewrite E'; reflexivity). rewrite <- T', <- T''.
    assert (K : exists c, run_cycles r = Some c) by (destruct (run_cycles r) as [c|]; [eauto|exfalso; pose proof (proj2 R2 eq_refl); discriminate]).
    destruct K as [c K]. rewrite K in R6. intros H. injection H; clear H. intros <-. unfold wrap.
    destruct (ev_interrupted D e); (rewrite Z.mod_small by lia; split; [lia|intros X; try discriminate; lia]).
  - pose proof (proj1 R2 eq_refl) as K. rewrite K in R6. subst offset. intros H. injection H; clear H. intros <-. unfold wrap. rewrite Z.mod_small by lia.
    split; [lia|]. intros _. unfold thermalisation, averaging. rewrite K. lia.
Qed.
Lemma made_some offset r' e : (forall c, run_cycles r' = Some c -> integrates c = true) -> exists total, made offset r' e = Some total.
Proof. intros I1. unfold made. destruct (run_cycles r') as [c|]; [rewrite (I1 c eq_refl)|]; eauto. Qed.


Lemma perform_inv : forall rs i (files : fs) offset r r' events, skipn i runs = r :: rs -> remaining offset r r' -> at_run files i -> Forall proper_event events ->
  exists i', at_run (perform files offset (r' :: rs) events) i'.
Proof.
  induction rs as [|r2 rs IH]; intros i files offset r r' events Hs R A F; (destruct events as [|e events]; [exists i; exact A|]); rewrite perform_cons;
    destruct (nth_split _ _ _ _ Hs) as [Hi Hs']; inversion F as [|? ? F1 F2]; subst;
    pose proof (proj1 (Forall_forall _ _) P r (nth_error_In _ _ Hi)) as Pr.
  all: pose proof (fun total => made_range offset r r' e total Pr R F1) as T; destruct R as (R1 & _).
  all: destruct (made offset r' e) as [total|]; [destruct (T total eq_refl) as [T1 T2]|exists i; exact A].
  all: destruct (store_ok files i r r' total e Hi R1 T1 F1) as (files' & -> & Q1 & [p Q2] & Q3); destruct A as (A0 & A1 & A2 & A3).
  all: assert (A1' : forall j q, (j < i)%nat -> nth_error runs j = Some q -> kept files' q) by (intros j q Hj Hq; refine (kept_ext files files' q _ (A1 j q Hj Hq)); intros name Hn; apply (Q3 j q); auto; lia).
  all: assert (A3' : forall j q, (i < j)%nat -> nth_error runs j = Some q -> not_performed files' q) by (intros j q Hj Hq; refine (not_performed_ext files files' q _ (A3 j q Hj Hq)); intros name Hn; apply (Q3 j q); auto; lia).
  all: assert (IN : at_run files' i) by (split; [auto|]; split; [auto|]; split; [|auto]; intros q Hq; right; exists total, p; replace q with r by congruence; auto).
  all: destruct (ev_interrupted D e); [exists i; exact IN|].
  all: specialize (T2 eq_refl).
  all: assert (NX : at_run files' (S i)) by
   (split; [pose proof (proj1 (nth_error_Some runs i) ltac:(congruence)); lia|]; split;
    [intros j q Hj Hq; destruct (Nat.eq_dec j i) as [->|Nj]; [replace q with r by congruence; split; [exists total; auto|exists p; auto]|apply (A1' j); auto; lia]|];
    split; [intros q Hq; left; apply (A3' (S i)); auto|intros j q Hj Hq; apply (A3' j); auto; lia]).
  - exists (S i). exact NX.
  - apply (IH (S i) files' 0 r2 r2 events Hs'); auto. apply whole_remains. apply (proj1 (Forall_forall _ _) P). apply (nth_error_In runs (S i)). exact (proj1 (nth_split _ _ _ _ Hs')).
Qed.

(** The states of files from which the program starts. *)
Lemma readable (files : fs) i : at_run files i -> forall q, In q runs -> ~ unreadable files q.
Proof.
  intros (A0 & A1 & A2 & A3) q Hq (name & content & H1 & H2 & H3). apply In_nth_error in Hq. destruct Hq as [j Hj].
  assert (X : begun files q).
  { destruct (Nat.lt_total j i) as [L|[->|L]]; [|auto|left; exact (A3 j q L Hj)]. right. destruct (A1 j q L Hj) as [(n & Hn & _) [p Hp]]. exists n, p. auto. }
  destruct X as [(name' & X1 & X2)|(n & p & Hn & _)]; [congruence|exact (H3 n Hn)].
Qed.
Lemma not_performed_unfinished (files : fs) q : not_performed files q -> ~ finished files q.
Proof. intros (name & A & B) (n & (name' & content & m & rest & v & tail & A1 & A2 & _) & _). congruence. Qed.
Lemma start (files : fs) i : at_run files i -> (forall q, In q runs -> kept files q) \/
  exists k r, first_unfinished files runs k r /\ at_run files k.
Proof.
  intros (A0 & A1 & A2 & A3). destruct (nth_error runs i) as [r|] eqn:Hi.
  - assert (X : kept files r \/ ~ finished files r).
    { destruct (A2 r eq_refl) as [N|(n & p & Hn & Hp)]; [right; exact (not_performed_unfinished _ _ N)|].
      destruct (Z_le_gt_dec (thermalisation r + averaging r) n) as [L|L]; [left; split; [exists n; auto|exists p; auto]|right].
      intros (n' & Hn' & L'). rewrite (cycles_unique _ _ _ _ Hn Hn') in L. lia. }
    destruct X as [K|N].
    + destruct (nth_error runs (S i)) as [r'|] eqn:Hi'.
      * right. exists (S i), r'. assert (A : at_run files (S i)).
        { split; [pose proof (proj1 (nth_error_Some runs (S i)) ltac:(congruence)); lia|]. split.
          - intros j q Hj Hq. destruct (Nat.eq_dec j i) as [->|Nj]; [replace q with r by congruence; auto|apply (A1 j); auto; lia].
          - split; [intros q Hq; left; apply (A3 (S i)); auto|intros j q Hj Hq; apply (A3 j); auto; lia]. }
        split; [|exact A]. split; [exact Hi'|]. split; [exact (not_performed_unfinished _ _ (A3 (S i) r' ltac:(lia) Hi'))|].
        intros j q Hj Hq. destruct A as (_ & A & _). exact (proj1 (A j q Hj Hq)).
      * left. intros q Hq. apply In_nth_error in Hq. destruct Hq as [j Hj]. apply nth_error_None in Hi'.
        pose proof (proj1 (nth_error_Some runs j) ltac:(congruence)). destruct (Nat.eq_dec j i) as [->|Nj]; [replace q with r by congruence; auto|apply (A1 j); auto; lia].
    + right. exists i, r. split; [|split; [auto|split; [auto|split; [|auto]]]; intros q Hq; apply A2; congruence]. split; [auto|]. split; [auto|]. intros j q Hj Hq. exact (proj1 (A1 j q Hj Hq)).
  - left. intros q Hq. apply In_nth_error in Hq. destruct Hq as [j Hj]. apply nth_error_None in Hi. apply (A1 j); auto. pose proof (proj1 (nth_error_Some runs j) ltac:(congruence)). lia.
Qed.

(** What is loaded in such a state. *)
Lemma load_ok (files : fs) k r cont : first_unfinished files runs k r -> at_run files k ->
  exists offset c p r', load files (Some auto_name) cont runs = Done (Loaded D k offset c p false (firstn k runs ++ r' :: skipn (S k) runs)) /\ remaining offset r r' /\
    with_thermalisation (Z.max 0 (thermalisation r - offset)) r r' /\ (performed_cycles files r offset \/ (not_performed files r /\ offset = 0)).
Proof.
  intros FU A. pose proof (readable files k A) as U. destruct A as (A0 & A1 & A2 & A3). pose proof FU as (Hk & NF & B).
  pose proof (proj1 (Forall_forall _ _) P r (nth_error_In _ _ Hk)) as Pr. pose proof (whole_remains r Pr) as WR. destruct Pr as (P0 & P1 & P2 & P3 & P4).
  assert (SAME : runs = firstn k runs ++ r :: skipn (S k) runs).
  { rewrite <- (firstn_skipn k runs) at 1. f_equal. clear - Hk. revert k Hk. induction runs as [|x l IH]; intros [|k] H; cbn [nth_error skipn] in *; try discriminate; [injection H; intros; subst; auto|]. rewrite (IH k H). reflexivity. }
  assert (WT : with_thermalisation (Z.max 0 (thermalisation r - 0)) r r).
  { unfold with_thermalisation. rewrite Z.max_r by lia. repeat split; try lia. destruct (run_cycles r); auto. }
  assert (FRESH : not_performed files r \/ performed_cycles files r 0 -> exists offset c p r', load files (Some auto_name) cont runs = Done (Loaded D k offset c p false (firstn k runs ++ r' :: skipn (S k) runs)) /\ remaining offset r r' /\
    with_thermalisation (Z.max 0 (thermalisation r - offset)) r r' /\ (performed_cycles files r offset \/ (not_performed files r /\ offset = 0))).
  { intros Z. assert (W : performed_cycles files r 0 \/ (not_performed files r /\ 0 = 0)) by tauto. destruct k as [|k'].
    - exists 0, false, None, r. rewrite <- SAME. rewrite (load_scratch scan zero hasVolume accepts files cont runs r P U FU A3 Z). auto.
    - destruct (nth_error runs k') as [q|] eqn:Hq; [|apply nth_error_None in Hq; pose proof (proj1 (nth_error_Some runs (S k')) ltac:(congruence)); lia].
      destruct (A1 k' q ltac:(lia) Hq) as [_ [p Hp]]. exists 0, false, (Some p), r. rewrite <- SAME.
      rewrite (proj1 (load_previous scan zero hasVolume accepts files cont runs k' r q P U FU A3 Z Hq) p Hp). auto. }
  destruct (A2 r Hk) as [N|(n & p & Hn & Hp)]; [auto|]. destruct (Z.eq_dec n 0) as [->|Nn]; [auto|].
  pose proof (cycles_range _ _ _ Hn) as Rn. destruct (load_continue scan zero hasVolume accepts files cont runs k r n P U FU A3 Hn ltac:(lia)) as [LC _].
  destruct (LC p Hp) as (r' & W & E). exists n, true, (Some p), r'. split; [exact E|]. split; [|auto].
  pose proof W as (W1 & W2 & W3 & W4 & W5). unfold remaining. split; [auto|]. split; [destruct (run_cycles r), (run_cycles r'); split; intros; try discriminate; tauto|].
  split; [lia|]. rewrite W1, W2. split; [lia|]. split; [lia|]. assert (LT : n < thermalisation r + averaging r) by (destruct (Z_lt_le_dec n (thermalisation r + averaging r)); [auto|exfalso; apply NF; exists n; auto]).
  destruct (run_cycles r) eqn:E'; [lia|]. exfalso. apply NF. exact (relaxation_finished _ _ _ E' Hn).
Qed.

Lemma invoke_at (files : fs) k r cont events : first_unfinished files runs k r -> at_run files k -> exists offset r',
  invoke D show scan zero hasVolume accepts files (Some auto_name) cont runs events = perform files offset (r' :: skipn (S k) runs) events /\ remaining offset r r' /\
    with_thermalisation (Z.max 0 (thermalisation r - offset)) r r' /\ (performed_cycles files r offset \/ (not_performed files r /\ offset = 0)).
Proof.
  intros FU A. destruct (load_ok files k r cont FU A) as (offset & c & p & r' & E & R & W & O). exists offset, r'. split; [|auto]. unfold invoke. rewrite E. cbn [ld_finished ld_offset ld_start ld_runs].
  f_equal. pose proof (proj1 (nth_error_Some runs k) ltac:(rewrite (proj1 FU); discriminate)) as L. rewrite skipn_app, firstn_length, Nat.min_l by lia. rewrite Nat.sub_diag, skipn_all2 by (rewrite firstn_length; lia). reflexivity.
Qed.
Lemma history_at (files : fs) : history show scan zero hasVolume accepts runs files -> exists i, at_run files i.
Proof.
  induction 1 as [files H|files events H [i A] F].
  - exists O. split; [lia|]. split; [intros; lia|]. split; [intros q Hq; left; apply H; exact (nth_error_In _ _ Hq)|]. intros j q _ Hq. apply H. exact (nth_error_In _ _ Hq).
  - destruct (start files i A) as [K|(k & r & FU & A')].
    + exists i. unfold invoke. rewrite (load_finished scan zero hasVolume accepts files None runs NE P (fun q Hq => proj1 (K q Hq))). exact A.
    + destruct (invoke_at files k r None events FU A') as (offset & r' & -> & R & _). refine (perform_inv _ k files offset r r' events _ R A' F).
      pose proof (proj1 FU) as Hk. clear - Hk. revert k Hk. induction runs as [|x l IH]; intros [|k] H; cbn [nth_error skipn] in *; try discriminate; [injection H; intros; subst; auto|]. rewrite (IH k H). reflexivity.
Qed.

Lemma never_refused (files : fs) : history show scan zero hasVolume accepts runs files -> exists l, load files (Some auto_name) None runs = Done l /\
  if ld_finished D l then forall q, In q runs -> finished files q else exists r, first_unfinished files runs (ld_start D l) r.
Proof.
  intros H. destruct (history_at files H) as [i A]. destruct (start files i A) as [K|(k & r & FU & A')].
  - eexists. split; [exact (load_finished scan zero hasVolume accepts files None runs NE P (fun q Hq => proj1 (K q Hq)))|]. cbn [ld_finished]. intros q Hq. exact (proj1 (K q Hq)).
  - destruct (load_ok files k r None FU A') as (offset & c & p & r' & E & _). eexists. split; [exact E|]. cbn [ld_finished ld_start]. exists r. exact FU.
Qed.

(** Without interruptions, all the runs get finished. *)
Lemma perform_all : forall rs i (files : fs) offset r r' events, skipn i runs = r :: rs -> remaining offset r r' -> at_run files i -> Forall proper_event events ->
  (length (r :: rs) <= length events)%nat -> Forall (fun e => ev_interrupted D e = false) events ->
  (forall c, run_cycles r' = Some c -> integrates c = true) -> (forall q c, In q rs -> run_cycles q = Some c -> integrates c = true) ->
  forall q, In q runs -> finished (perform files offset (r' :: rs) events) q.
Proof.
  induction rs as [|r2 rs IH]; intros i files offset r r' events Hs R A F LE NI I1 I2; (destruct events as [|e events]; [cbn [length] in LE; lia|]); rewrite perform_cons;
    destruct (nth_split _ _ _ _ Hs) as [Hi Hs']; inversion F as [|? ? F1 F2]; subst; inversion NI as [|? ? N1 N2]; subst;
    pose proof (proj1 (Forall_forall _ _) P r (nth_error_In _ _ Hi)) as Pr; rewrite N1.
  all: pose proof (fun total => made_range offset r r' e total Pr R F1) as T; destruct R as (R1 & _).
  all: destruct (made_some offset r' e I1) as [total M]; rewrite M; destruct (T total M) as [T1 T2']; pose proof (T2' N1) as T2.
  all: destruct (store_ok files i r r' total e Hi R1 T1 F1) as (files' & -> & Q1 & [p Q2] & Q3); destruct A as (A0 & A1 & A2 & A3).
  all: assert (A1' : forall j q, (j < i)%nat -> nth_error runs j = Some q -> kept files' q) by (intros j q Hj Hq; refine (kept_ext files files' q _ (A1 j q Hj Hq)); intros name Hn; apply (Q3 j q); auto; lia).
  all: assert (A3' : forall j q, (i < j)%nat -> nth_error runs j = Some q -> not_performed files' q) by (intros j q Hj Hq; refine (not_performed_ext files files' q _ (A3 j q Hj Hq)); intros name Hn; apply (Q3 j q); auto; lia).
  all: assert (NX : at_run files' (S i)) by
   (split; [pose proof (proj1 (nth_error_Some runs i) ltac:(congruence)); lia|]; split;
    [intros j q Hj Hq; destruct (Nat.eq_dec j i) as [->|Nj]; [replace q with r by congruence; split; [exists total; auto|exists p; auto]|apply (A1' j); auto; lia]|];
    split; [intros q Hq; left; apply (A3' (S i)); auto|intros j q Hj Hq; apply (A3' j); auto; lia]).
  - intros q Hq. cbn [performRuns]. apply In_nth_error in Hq. destruct Hq as [j Hj]. destruct NX as (_ & NX & _). refine (proj1 (NX j q _ Hj)).
    assert (X : length (skipn (S i) runs) = O) by (rewrite Hs'; reflexivity). rewrite skipn_length in X. pose proof (proj1 (nth_error_Some runs j) ltac:(congruence)). lia.
  - apply (IH (S i) files' 0 r2 r2 events Hs'); auto.
    + apply whole_remains. apply (proj1 (Forall_forall _ _) P). apply (nth_error_In runs (S i)). exact (proj1 (nth_split _ _ _ _ Hs')).
    + cbn [length] in LE |- *. lia.
    + intros c Hc. apply (I2 r2 c); [left; auto|auto].
    + intros q c Hq. apply (I2 q c). right. auto.
Qed.
Lemma completes (files : fs) events : history show scan zero hasVolume accepts runs files -> Forall proper_event events ->
  (length runs <= length events)%nat -> Forall (fun e => ev_interrupted D e = false) events ->
  (forall q c, In q runs -> run_cycles q = Some c -> integrates c = true) ->
  (forall r n c, In r runs -> performed_cycles files r n -> run_cycles r = Some c -> n < thermalisation r + averaging r -> cy_snapshotEvery c <= Z.max 0 (thermalisation r - n) + averaging r) ->
  forall q, In q runs -> finished (invoke D show scan zero hasVolume accepts files (Some auto_name) None runs events) q.
Proof.
  intros H F LE NI I1 I2. destruct (history_at files H) as [i A]. destruct (start files i A) as [K|(k & r & FU & A')].
  { unfold invoke. rewrite (load_finished scan zero hasVolume accepts files None runs NE P (fun q Hq => proj1 (K q Hq))). intros q Hq. exact (proj1 (K q Hq)). }
  destruct (invoke_at files k r None events FU A') as (offset & r' & -> & R & W & O).
  assert (Hs : skipn k runs = r :: skipn (S k) runs).
  { pose proof (proj1 FU) as Hk. clear - Hk. revert k Hk. induction runs as [|x l IH]; intros [|k] H; cbn [nth_error skipn] in *; try discriminate; [injection H; intros; subst; auto|]. rewrite (IH k H). reflexivity. }
  apply (perform_all _ k files offset r r' events Hs R A' F); auto.
  - pose proof (f_equal (@length run) Hs) as X. rewrite skipn_length in X. lia.
  - intros c' E'. destruct W as (W1 & W2 & W3 & W4 & W5). rewrite E' in W5. destruct (run_cycles r) as [c|] eqn:E; [|contradiction]. destruct W5 as (W5 & W6 & W7).
    pose proof (nth_error_In _ _ (proj1 FU)) as IN. pose proof (I1 r c IN E) as I1'. destruct FU as (Hk & NF & _).
    pose proof (proj1 (Forall_forall _ _) P r IN) as (P0 & P1 & P2 & P3 & P4). rewrite E in P4. specialize (P4 ltac:(discriminate)).
    assert (BD : 0 <= offset < thermalisation r + averaging r /\ cy_snapshotEvery c <= Z.max 0 (thermalisation r - offset) + averaging r).
    { destruct O as [O|[_ O]].
      - assert (LT : offset < thermalisation r + averaging r) by (destruct (Z_lt_le_dec offset (thermalisation r + averaging r)); [auto|exfalso; apply NF; exists offset; auto]).
        pose proof (cycles_range _ _ _ O). split; [lia|]. exact (I2 r offset c IN O E LT).
      - subst offset. split; [lia|]. unfold integrates in I1'. rewrite !andb_true_iff in I1'. destruct I1' as [_ I1']. apply Z.leb_le in I1'.
        unfold wrap in I1'. unfold thermalisation, averaging in P1, P2, P3, P4 |- *. rewrite E in *. rewrite Z.mod_small in I1' by lia. lia. }
    destruct BD as [BD1 BD2]. unfold integrates in I1' |- *. rewrite W5, W6, W7.
    unfold thermalisation in P1, P3, P4, BD1, BD2, W1; unfold averaging in P2, P3, P4, BD1, BD2. rewrite E in *. rewrite E' in W1. rewrite W1. unfold wrap in *. rewrite Z.mod_small in * by lia.
    rewrite !andb_true_iff, !orb_true_iff, !andb_true_iff, !negb_true_iff, !Z.ltb_lt, !Z.ltb_ge, !Z.leb_le in *. lia.
  - intros q c Hq. apply I1. apply in_skip in Hq. destruct Hq as (j & _ & Hj). exact (nth_error_In _ _ Hj).
Qed.
End history.
