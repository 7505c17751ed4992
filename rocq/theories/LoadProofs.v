From Coq Require Import ZArith List Bool Lia.
From Verif Require Import OptModel TextModel TextProofs RamsnapModel RamsnapSpec RamsnapProofs LoadModel LoadSpec.
Import ListNotations.
Open Scope Z_scope.

Lemma set_above {A} (k0 k : text) (v : A) : forall m, Forall (fun e : text * A => text_ltb k0 (fst e) = true) m -> text_ltb k0 k = true ->
  Forall (fun e : text * A => text_ltb k0 (fst e) = true) (map_set k v m).
Proof.
  induction m as [|[k' v'] m IH]; intros F H; cbn [map_set]. { constructor; auto. }
  inversion F as [|? ? F1 F2]; subst. cbn [fst] in F1.
  destruct (text_ltb k k'); [constructor; auto|]. destruct (text_eqb k k'); constructor; auto.
Qed.
Lemma ordered_cons {A} (e : text * A) m : Forall (fun e' => text_ltb (fst e) (fst e') = true) m -> ordered_map m -> ordered_map (e :: m).
Proof. destruct e as [k v], m as [|[k' v'] m]; intros F O; [exact I|]. split; [exact (Forall_inv F)|exact O]. Qed.
Lemma set_ordered {A} (k : text) (v : A) : forall m, ordered_map m -> ordered_map (map_set k v m).
Proof.
  induction m as [|[k' v'] m IH]; intros O; [exact I|]. pose proof (ordered_tail _ _ O) as O'. pose proof (ordered_head _ _ O) as F. cbn [map_set].
  destruct (text_ltb k k') eqn:E1.
  - apply ordered_cons; [|exact O]. constructor; [exact E1|]. refine (Forall_impl _ _ F). cbn [fst]. intros a Ha. exact (text_ltb_trans _ _ _ E1 Ha).
  - destruct (text_eqb k k') eqn:E2.
    + apply text_eqb_eq in E2. subst k'. apply ordered_cons; [exact F|exact O'].
    + apply ordered_cons; [|auto]. apply set_above; [exact F|]. apply text_eqb_neq in E2. apply text_ltb_total; auto.
Qed.
Lemma entries_ordered : forall n m l m' l', ordered_map m -> restoreEntries n m l = Some (m', l') -> ordered_map m'.
Proof.
  induction n as [|n IH]; intros m l m' l' O H; cbn [restoreEntries] in H. { injection H; intros; subst; auto. }
  destruct (extract_word l) as [k|]; [|discriminate]. cbn [obind] in H. destruct (getline newline (skip_ws (snd k))) as [v|]; [|discriminate]. cbn [obind] in H.
  apply (IH _ _ _ _ (set_ordered (fst k) (fst v) m O) H).
Qed.
Lemma aux_ordered content m rest : restoreAuxInfo content = Some (m, rest) -> ordered_map m.
Proof. unfold restoreAuxInfo. destruct (extract_size content) as [s|]; [|discriminate]. cbn [obind]. apply entries_ordered. exact I. Qed.

Lemma find_In {A} (k : text) (v : A) : forall m, ordered_map m -> (map_find k m = Some v <-> In (k, v) m).
Proof.
  unfold map_find. induction m as [|[k' v'] m IH]; intros O; cbn [find fst In]. { split; [discriminate|tauto]. }
  pose proof (ordered_head _ _ O) as F. specialize (IH (ordered_tail _ _ O)). destruct (text_eqb k' k) eqn:E.
  - apply text_eqb_eq in E. subst k'. cbn [option_map snd]. split; [intros H; injection H; intros; subst; auto|].
    intros [H|H]; [injection H; intros; subst; auto|]. rewrite Forall_forall in F. specialize (F _ H). cbn [fst] in F. rewrite text_ltb_irrefl in F. discriminate.
  - rewrite IH. split; auto. intros [H|H]; auto. injection H; intros; subst. rewrite text_eqb_refl in E. discriminate.
Qed.
Lemma find_set {A} (k : text) (v : A) m : ordered_map m -> map_find k (map_set k v m) = Some v.
Proof.
  intros O. apply (find_In k v _ (set_ordered k v m O)). clear O. induction m as [|[k' v'] m IH]; cbn [map_set]; [left; auto|].
  destruct (text_ltb k k'); [left; auto|]. destruct (text_eqb k k') eqn:E; [left; auto|]. right. auto.
Qed.

Lemma extracted_range s n tail : extract_size s = Some (n, tail) -> 0 <= n < 2 ^ 64.
Proof.
  unfold extract_size. set (q := match skip_ws s with 45 :: r => (true, r) | 43 :: r => (false, r) | _ => (false, skip_ws s) end). destruct q as [neg l2].
  destruct (take_digits l2) as [u rest]. destruct u; try discriminate.
  all: match goal with |- context [Z.of_N ?a] => generalize (N2Z.is_nonneg a); generalize (Z.of_N a) end; intros v V;
    destruct (Z.leb_spec (2 ^ 64) v); intros E; [discriminate|]; injection E; intros; subst n; destruct neg; try lia; apply Z.mod_pos_bound; lia.
Qed.

Lemma cycles_range files r n : performed_cycles files r n -> 0 <= n < 2 ^ 64.
Proof. intros (name & content & m & rest & v & tail & _ & _ & _ & _ & H). exact (extracted_range _ _ _ H). Qed.
Lemma cycles_unique files r n n' : performed_cycles files r n -> performed_cycles files r n' -> n = n'.
Proof.
  intros (name & content & m & rest & v & tail & A1 & A2 & A3 & A4 & A5) (name' & content' & m' & rest' & v' & tail' & B1 & B2 & B3 & B4 & B5).
  assert (name' = name) by congruence. subst. assert (content' = content) by congruence. subst. assert (m' = m) by congruence. subst.
  pose proof (aux_ordered _ _ _ A3) as O. apply (find_In _ _ _ O) in A4. apply (find_In _ _ _ O) in B4. congruence.
Qed.

(** What is known about a run. *)
Inductive data_of (files : fs) (r : run) : performed -> Prop :=
| data_missing : not_performed files r -> data_of files r (Performed (thermalisation r + averaging r) false false 0)
| data_performed n : performed_cycles files r n -> data_of files r (Performed (thermalisation r + averaging r) true false n).
Definition unreadable_data (o : outcome performed) : Prop := o = Refused Broken \/ exists d, o = Done d /\ pd_corrupted d = true.

Lemma expected_sum r : proper_run r -> expectedCycles r = thermalisation r + averaging r.
Proof. intros (_ & A & B & C & _). unfold expectedCycles, thermalisation, averaging in *. destruct (run_cycles r); [|reflexivity]. apply Z.mod_small. lia. Qed.

Lemma data_cases files r : proper_run r -> (exists d, runData files r = Done d /\ data_of files r d) \/ (unreadable files r /\ unreadable_data (runData files r)).
Proof.
  intros P. pose proof (expected_sum r P) as X. destruct P as [[name E] _]. unfold runData. rewrite E, X.
  destruct (files name) as [content|] eqn:F; [|left; eexists; split; [reflexivity|]; constructor; exists name; auto].
  assert (U : (forall n, ~ performed_cycles files r n) -> unreadable files r) by (intros H; exists name, content; auto).
  destruct (restoreAuxInfo content) as [[m rest]|] eqn:R.
  2: { right. split; [|left; reflexivity]. apply U. intros n (name' & content' & m & rest & v & tail & A1 & A2 & A3 & A4 & A5). congruence. }
  pose proof (aux_ordered _ _ _ R) as O. destruct (map_find cycles_key m) as [v|] eqn:V.
  2: { right. split; [|left; reflexivity]. apply U. intros n (name' & content' & m' & rest' & v & tail & A1 & A2 & A3 & A4 & A5).
       assert (name' = name) by congruence. subst. assert (content' = content) by congruence. subst. assert (m' = m) by congruence. subst.
       apply (find_In _ _ _ O) in A4. congruence. }
  pose proof (proj1 (find_In _ _ _ O) V) as V'. unfold stoul. destruct (extract_size v) as [[n tail]|] eqn:S; cbn [option_map fst].
  - left. eexists. split; [reflexivity|]. constructor. exists name, content, m, rest, v, tail. auto.
  - right. split; [|right; eexists; split; reflexivity]. apply U. intros n (name' & content' & m' & rest' & v' & tail & A1 & A2 & A3 & A4 & A5).
    assert (name' = name) by congruence. subst. assert (content' = content) by congruence. subst. assert (m' = m) by congruence. subst.
    apply (find_In _ _ _ O) in A4. congruence.
Qed.
Lemma data_readable files r d : data_of files r d -> ~ unreadable files r.
Proof.
  intros H (name & content & A & B & C). destruct H as [(name' & A' & B')|n H]; [congruence|exact (C n H)].
Qed.

Lemma gather_readable files : forall runs, Forall proper_run runs -> (forall r, In r runs -> ~ unreadable files r) ->
  exists ds, gatherRunData files runs = Done ds /\ Forall2 (data_of files) runs ds.
Proof.
  induction runs as [|r runs IH]; intros F U. { exists []. split; [reflexivity|constructor]. }
  inversion F as [|? ? F1 F2]; subst. destruct IH as (ds & E & Q); [auto|intros q Hq; apply U; right; auto|].
  destruct (data_cases files r F1) as [(d & Ed & Hd)|[H _]]; [|exfalso; exact (U r (or_introl eq_refl) H)].
  exists (d :: ds). cbn [gatherRunData]. rewrite Ed. cbn [bind]. rewrite E. split; [reflexivity|constructor; auto].
Qed.
Lemma gather_unreadable files : forall runs, Forall proper_run runs -> (exists r, In r runs /\ unreadable files r) ->
  gatherRunData files runs = Refused Broken \/ exists ds, gatherRunData files runs = Done ds /\ existsb pd_corrupted ds = true.
Proof.
  induction runs as [|r runs IH]; intros F (q & Hq & U); [destruct Hq|].
  inversion F as [|? ? F1 F2]; subst. cbn [gatherRunData].
  assert (T : gatherRunData files runs = Refused Broken \/ exists ds, gatherRunData files runs = Done ds).
  { clear IH U Hq F F1. induction runs as [|p runs IH]; [right; exists []; auto|]. inversion F2 as [|? ? G1 G2]; subst. cbn [gatherRunData].
    destruct (data_cases files p G1) as [(d & Ed & Hd)|[_ [Ed|(d & Ed & Hd)]]]; rewrite Ed; cbn [bind]; auto.
    all: destruct (IH G2) as [E|(ds & E)]; rewrite E; cbn [bind]; [left; auto|right; eexists; auto]. }
  destruct (data_cases files r F1) as [(d & Ed & Hd)|[_ [Ed|(d & Ed & Hd)]]]; rewrite Ed; cbn [bind].
  - destruct Hq as [<-|Hq]; [exfalso; exact (data_readable _ _ _ Hd U)|].
    destruct (IH F2 (ex_intro _ q (conj Hq U))) as [E|(ds & E & C)]; rewrite E; cbn [bind]; [left; auto|right].
    eexists. split; [reflexivity|]. cbn [existsb]. rewrite C. apply orb_true_r.
  - left. auto.
  - destruct T as [E|(ds & E)]; rewrite E; cbn [bind]; [left; auto|right]. eexists. split; [reflexivity|]. cbn [existsb]. rewrite Hd. reflexivity.
Qed.

Lemma finished_data files r d : data_of files r d -> (isFinished d = true <-> finished files r).
Proof.
  intros [(name & A & B)|n H]; unfold isFinished; cbn [pd_performed pd_corrupted pd_expected pd_done andb negb].
  - split; [discriminate|]. intros (n & (name' & content & m & rest & v & tail & A1 & A2 & _) & _). congruence.
  - rewrite Z.leb_le. split; [intros L; exists n; auto|]. intros (n' & H' & L). rewrite (cycles_unique _ _ _ _ H H'). exact L.
Qed.
Lemma performed_data files r d : data_of files r d -> (pd_performed d = true <-> ~ not_performed files r).
Proof.
  intros [(name & A & B)|n (name & content & m & rest & v & tail & A1 & A2 & _)]; cbn [pd_performed].
  - split; [discriminate|]. intros H. exfalso. apply H. exists name. auto.
  - split; auto. intros _ (name' & B1 & B2). congruence.
Qed.
Lemma not_corrupted files runs ds : Forall2 (data_of files) runs ds -> existsb pd_corrupted ds = false.
Proof. induction 1 as [|r d runs ds H F IH]; [reflexivity|]. cbn [existsb]. rewrite IH. destruct H; reflexivity. Qed.
Lemma find_index_spec {A} (f : A -> bool) : forall l, (forall j x, (j < find_index f l)%nat -> nth_error l j = Some x -> f x = false) /\
  match nth_error l (find_index f l) with Some x => f x = true | None => find_index f l = length l end.
Proof.
  induction l as [|y l [I1 I2]]; cbn [find_index]. { split; [intros; lia|reflexivity]. }
  destruct (f y) eqn:E. { split; [intros; lia|exact E]. }
  split. { intros [|j] x Hj Hx; cbn [nth_error] in Hx; [congruence|]. apply (I1 j x); [lia|auto]. }
  cbn [nth_error]. destruct (nth_error l (find_index f l)); [auto|]. cbn [length]. lia.
Qed.
Lemma find_index_at {A} (f : A -> bool) : forall l i x, nth_error l i = Some x -> f x = true -> (forall j y, (j < i)%nat -> nth_error l j = Some y -> f y = false) ->
  find_index f l = i.
Proof.
  induction l as [|y l IH]; intros [|i] x Hx Fx B; cbn [nth_error find_index] in *; try discriminate.
  - injection Hx; intros; subst. rewrite Fx. reflexivity.
  - rewrite (B O y); [|lia|reflexivity]. f_equal. apply (IH i x); auto. intros j z Hj Hz. apply (B (S j) z); [lia|auto].
Qed.
Lemma forall2_nth {A B} (R : A -> B -> Prop) l l' : Forall2 R l l' -> forall i x, nth_error l i = Some x -> exists y, nth_error l' i = Some y /\ R x y.
Proof. induction 1 as [|a b l l' H F IH]; intros [|i] x Hx; cbn [nth_error] in *; try discriminate; [injection Hx; intros; subst; eauto|eauto]. Qed.
Lemma forall2_nth' {A B} (R : A -> B -> Prop) l l' : Forall2 R l l' -> forall i y, nth_error l' i = Some y -> exists x, nth_error l i = Some x /\ R x y.
Proof. induction 1 as [|a b l l' H F IH]; intros [|i] x Hx; cbn [nth_error] in *; try discriminate; [injection Hx; intros; subst; eauto|eauto]. Qed.
Lemma forall2_skip {A B} (R : A -> B -> Prop) l l' : Forall2 R l l' -> forall i, Forall2 R (skipn i l) (skipn i l').
Proof. induction 1 as [|a b l l' H F IH]; intros [|i]; cbn [skipn]; auto. Qed.
Lemma in_skip {A} (x : A) : forall k l, In x (skipn k l) <-> exists j, (k <= j)%nat /\ nth_error l j = Some x.
Proof.
  induction k as [|k IH]; intros l; cbn [skipn].
  - split; [intros H; apply In_nth_error in H; destruct H as (j & H); exists j; split; [lia|auto]|]. intros (j & _ & H). exact (nth_error_In _ _ H).
  - destruct l as [|y l]; [split; [intros []|intros (j & _ & H); destruct j; discriminate]|]. rewrite IH. split.
    + intros (j & Hj & H). exists (S j). split; [lia|exact H].
    + intros ([|j] & Hj & H); [lia|]. exists j. split; [lia|exact H].
Qed.
Lemma all_outputs runs : Forall proper_run runs -> allRunsHaveDatOutput runs = true.
Proof. intros F. apply forallb_forall. rewrite Forall_forall in F. intros r Hr. destruct (F r Hr) as [[name E] _]. rewrite E. reflexivity. Qed.

Lemma forall2_len {A B} (R : A -> B -> Prop) l l' : Forall2 R l l' -> length l = length l'.
Proof. induction 1; cbn [length]; congruence. Qed.
(** Detection of the starting run. *)
Lemma auto_refused files runs : Forall proper_run runs -> (exists r, In r runs /\ unreadable files r) -> exists why, autoFindStartRunIndex files runs = Refused why.
Proof.
  intros F U. unfold autoFindStartRunIndex. rewrite (all_outputs _ F). cbn [negb].
  destruct (gather_unreadable files runs F U) as [E|(ds & E & C)]; rewrite E; cbn [bind]; [eauto|].
  destruct ds; [discriminate|]. rewrite C. eauto.
Qed.
Lemma auto_finished files runs : runs <> [] -> Forall proper_run runs -> (forall r, In r runs -> finished files r) ->
  autoFindStartRunIndex files runs = Done (Found (length runs) None true).
Proof.
  intros NE F A. unfold autoFindStartRunIndex. rewrite (all_outputs _ F). cbn [negb].
  assert (U : forall r, In r runs -> ~ unreadable files r).
  { intros r Hr (name & content & _ & _ & H). destruct (A r Hr) as (n & Hn & _). exact (H n Hn). }
  destruct (gather_readable files runs F U) as (ds & E & Q). rewrite E. cbn [bind]. pose proof (forall2_len _ _ _ Q) as L.
  destruct ds as [|d0 ds0] eqn:D; [destruct runs; [congruence|discriminate]|]. rewrite <- D in *. clear D.
  rewrite (not_corrupted _ _ _ Q). destruct (find_index_spec (fun d => negb (isFinished d)) ds) as [_ I]. 
  destruct (nth_error ds (find_index (fun d => negb (isFinished d)) ds)) as [d|] eqn:Ed; [|congruence].
  exfalso. destruct (forall2_nth' _ _ _ Q _ _ Ed) as (r & Hr & Hd). apply nth_error_In in Hr.
  rewrite (proj2 (finished_data _ _ _ Hd) (A r Hr)) in I. discriminate.
Qed.
Lemma auto_found files runs i r : runs <> [] -> Forall proper_run runs -> (forall q, In q runs -> ~ unreadable files q) -> first_unfinished files runs i r ->
  autoFindStartRunIndex files runs = if existsb (fun q => match run_out q with Some n => match files n with Some _ => true | None => false end | None => false end) (skipn (S i) runs)
    then Refused PerformedAfterUnfinished
    else Done (Found i (match runData files r with Done d => if pd_done d =? 0 then None else Some 0 | _ => None end) false).
Proof.
  intros NE F U (Hi & N & B). unfold autoFindStartRunIndex. rewrite (all_outputs _ F). cbn [negb].
  destruct (gather_readable files runs F U) as (ds & E & Q). rewrite E. cbn [bind]. pose proof (forall2_len _ _ _ Q) as L.
  destruct ds as [|d0 ds0] eqn:D; [destruct runs; [congruence|discriminate]|]. rewrite <- D in *. clear D.
  rewrite (not_corrupted _ _ _ Q). destruct (forall2_nth _ _ _ Q _ _ Hi) as (d & Hd & Dd).
  assert (X : find_index (fun d => negb (isFinished d)) ds = i).
  { apply (find_index_at _ _ _ d Hd).
    - destruct (isFinished d) eqn:Fd; [|reflexivity]. exfalso. apply N. apply (finished_data _ _ _ Dd). exact Fd.
    - intros j y Hj Hy. destruct (forall2_nth' _ _ _ Q _ _ Hy) as (q & Hq & Dq). rewrite (proj2 (finished_data _ _ _ Dq) (B j q Hj Hq)). reflexivity. }
  rewrite X, Hd. replace (existsb pd_performed (skipn (S i) ds)) with
    (existsb (fun q => match run_out q with Some n => match files n with Some _ => true | None => false end | None => false end) (skipn (S i) runs)).
  - assert (P : proper_run r) by (rewrite Forall_forall in F; apply F; exact (nth_error_In _ _ Hi)).
    destruct (data_cases files r P) as [(d' & Ed' & Dd')|[H _]]; [|exfalso; exact (U r (nth_error_In _ _ Hi) H)]. rewrite Ed'.
    replace (pd_done d') with (pd_done d); [reflexivity|]. destruct Dd as [(n1 & A1 & A2)|n Hn], Dd' as [(n1' & A1' & A2')|n' Hn']; cbn [pd_done]; auto.
    + destruct Hn' as (name & content & m & rest & v & tail & C1 & C2 & _). congruence.
    + destruct Hn as (name & content & m & rest & v & tail & C1 & C2 & _). congruence.
    + exact (cycles_unique _ _ _ _ Hn Hn').
  - pose proof (forall2_skip _ _ _ Q (S i)) as Q'. clear - Q'. induction Q' as [|q d l l' H Q IH]; [reflexivity|]. cbn [existsb]. rewrite IH. f_equal.
    destruct H as [(name & A & B)|n (name & content & m & rest & v & tail & A1 & A2 & _)]; cbn [pd_performed]; [rewrite A, B|rewrite A1, A2]; reflexivity.
Qed.
