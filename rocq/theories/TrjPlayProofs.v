(** Players (C27, C30, C31). *)
From Coq Require Import ZArith List Bool Lia ZifyBool ZifyNat.
From Verif Require Import OptModel TrjModel TrjSpec TrjProofs.
Import ListNotations.
Open Scope Z_scope.

Lemma wrap_small x : 0 <= x < 2 ^ 64 -> wrap x = x.
Proof. intros H. apply Z.mod_small. exact H. Qed.
Lemma size_pos n : 0 < n -> 0 < size_of n. Proof. unfold size_of. lia. Qed.
Lemma fits_le n step k j : fits n step k -> 0 <= j <= k -> fits n step j.
Proof.
  intros (A & B & C & D & E & F) H. pose proof (size_pos n A). unfold fits. repeat (split; [assumption|]).
  split; [apply Z.le_lt_trans with (33 + k * size_of n); auto; apply Z.add_le_mono_l, Z.mul_le_mono_nonneg_r; lia|].
  apply Z.le_lt_trans with (k * step); auto. apply Z.mul_le_mono_nonneg_r; lia.
Qed.
Lemma fits_small n step k : fits n step k -> 0 <= k -> is_word64 n /\ is_word64 step /\ (k < 2 ^ 63) /\ (0 < k -> size_of n < 2 ^ 63).
Proof.
  intros (A & B & C & D & E & F) H. pose proof (size_pos n A). unfold is_word64. split; [lia|]. split; [lia|]. unfold size_of in *. split; nia.
Qed.
Lemma snapshot_size n h : hd_particles h = n -> 0 < n -> size_of n < 2 ^ 64 -> getSnapshotSize h = size_of n.
Proof. intros E H Hs. unfold getSnapshotSize. rewrite E. replace (72 + n * 48) with (size_of n) by (unfold size_of; lia). apply wrap_small. unfold size_of in *. lia. Qed.
Lemma streamoff n h step k j : hd_particles h = n -> fits n step k -> 0 <= j <= k -> streamoffForSnapshot h j = 33 + j * size_of n.
Proof.
  intros E F H. destruct (fits_le n step k j F H) as (A & _ & _ & _ & Hb & _). pose proof (size_pos n A).
  assert (0 <= j * size_of n) by (apply Z.mul_nonneg_nonneg; lia). change (2 ^ 63) with 9223372036854775808 in Hb. change (2 ^ 64) with 18446744073709551616 in *.
  assert (P : wrap (j * getSnapshotSize h) = j * size_of n).
  { destruct (Z.eq_dec j 0) as [->|Hj]; [reflexivity|]. rewrite (snapshot_size n h E A); [apply wrap_small; change (2 ^ 64) with 18446744073709551616; lia|].
    change (2 ^ 64) with 18446744073709551616. assert (1 * size_of n <= j * size_of n) by (apply Z.mul_le_mono_nonneg_r; lia). lia. }
  unfold streamoffForSnapshot. rewrite P. unfold getHeaderSize. rewrite wrap_small by (change (2 ^ 64) with 18446744073709551616; lia).
  unfold to_signed, W64. change (2 ^ 64 / 2) with 9223372036854775808. assert (33 + j * size_of n <? 9223372036854775808 = true) as -> by lia. reflexivity.
Qed.

(** A file whose data begin with the snapshots [ss]. *)
Definition holds (n : Z) (ss : list snapshot) (content : list Z) : Prop :=
  exists hd rest, content = hd ++ concat (map snap_bytes ss) ++ rest /\ length hd = 33%nat.
Lemma read_kth n ss content k s : Forall (good_snapshot n) ss -> holds n ss content -> nth_error ss k = Some s ->
  exists a c, content = a ++ snap_bytes s ++ c /\ Z.of_nat (length a) = 33 + Z.of_nat k * size_of n.
Proof.
  intros F (hd & rest & -> & L) N. destruct (nth_error_split _ _ N) as (l1 & l2 & -> & Hk). apply Forall_app in F. destruct F as [F1 _].
  exists (hd ++ concat (map snap_bytes l1)), (concat (map snap_bytes l2) ++ rest). split.
  - rewrite map_app, concat_app. cbn [map concat]. rewrite <- !app_assoc. reflexivity.
  - rewrite app_length, Nat2Z.inj_add, (data_length n), L, Hk by auto. reflexivity.
Qed.

Lemma short_nth (k i : nat) (ss : list snapshot) : nth_error (firstn k ss) i = if Nat.ltb i k then nth_error ss i else None.
Proof.
  revert k i. induction ss as [|x l IH]; intros k i.
  - rewrite firstn_nil. destruct i; cbn [nth_error]; destruct (_ <? _)%nat; reflexivity.
  - destruct k as [|k]; [destruct i; reflexivity|]. destruct i as [|i]; [reflexivity|]. cbn [firstn nth_error]. rewrite IH. reflexivity.
Qed.

Section player.
Variables (n step : Z) (ss : list snapshot) (content : list Z).
Let m := Z.of_nat (length ss).
Hypothesis F : fits n step m.
Hypothesis G : Forall (good_snapshot n) ss.
Hypothesis H : holds n ss content.
Definition rel (p : player) (s : shelf) : Prop :=
  hd_particles (py_header p) = n /\ hd_step (py_header p) = step /\ hd_snapshots (py_header p) = m /\ py_content p = content /\
  sf_all s = ss /\ sf_step s = step /\ (sf_shown s <= length ss)%nat /\ py_current p = Z.of_nat (sf_shown s) /\ py_open p = sf_open s /\
  py_pos p = 33 + py_current p * size_of n.

Lemma next_rel p s : rel p s -> exists p', nextSnapshot n p = Some (p', snd (show (sf_shown s) s)) /\ rel p' (fst (show (sf_shown s) s)).
Proof using F G H.
  intros R. pose proof R as (A1 & A2 & A3 & A4 & A5 & A6 & A7 & A8 & A9 & A10). unfold nextSnapshot, hasNext. rewrite A1, A3, A8, A9, Z.eqb_refl, andb_true_r.
  unfold show. rewrite A5. destruct (nth_error ss (sf_shown s)) as [x|] eqn:N.
  - assert (Hlt : (sf_shown s < length ss)%nat) by (apply nth_error_Some; congruence). assert (Z.of_nat (sf_shown s) <? m = true) as -> by (unfold m; lia).
    destruct (sf_open s) eqn:O; cbn [andb negb fst snd]; [|eexists; split; [reflexivity|exact R]].
    destruct (read_kth n ss content _ _ G H N) as (a & c & E & La). rewrite A4, A10, A8, E. rewrite <- La, Nat2Z.id.
    rewrite Forall_forall in G. pose proof (G x (nth_error_In _ _ N)) as Gx. destruct (read_snapshot n x a c Gx) as (pos' & -> & E2). cbn [obind fst snd]. rewrite E2. cbn [obind fst snd].
    eexists. split; [destruct x; reflexivity|]. unfold rel. cbn [py_header py_content py_current py_open py_pos sf_all sf_step sf_shown sf_open].
    rewrite wrap_small; [|destruct (fits_small n step m F ltac:(lia)) as (_ & _ & B & _); change (2 ^ 63) with 9223372036854775808 in B; change (2 ^ 64) with 18446744073709551616; unfold m in B; lia].
    repeat (split; [assumption|]). split; [symmetry; exact E|]. split; [reflexivity|]. split; [assumption|]. split; [lia|]. split; [lia|]. split; [reflexivity || assumption|].
    rewrite Nat2Z.inj_add, La, (snap_length n x Gx). lia.
  - assert (Hge : (length ss <= sf_shown s)%nat) by (apply nth_error_None; exact N). assert (Z.of_nat (sf_shown s) <? m = false) as -> by (unfold m; lia).
    rewrite andb_false_r. cbn [negb fst snd]. eexists; split; [reflexivity|exact R].
Qed.
Lemma jump_rel p s c : rel p s -> is_word64 c ->
  exists p' s' r, jumpToSnapshot n c p = Some (p', r) /\ shelf_move (Jump c) s = Some (s', r) /\ rel p' s'.
Proof using F G H.
  intros R Hc. pose proof R as (A1 & A2 & A3 & A4 & A5 & A6 & A7 & A8 & A9 & A10). unfold jumpToSnapshot, shelf_move. rewrite A1, A2, A3, A6, A9.
  assert (Hs : 0 < step) by apply F.
  destruct (Z.eqb_spec step 0) as [|_]; [lia|]. destruct (Z.eqb_spec (c mod step) 0) as [Ed|Ed]; cbn [negb andb].
  2:{ destruct (sf_open s && (0 <? m)); cbn [negb]; do 3 eexists; (split; [reflexivity|]; split; [reflexivity|exact R]). }
  pose proof (Z.div_mod c step ltac:(lia)) as Dm. rewrite Ed, Z.add_0_r in Dm. unfold is_word64 in Hc.
  destruct (Z.ltb_spec 0 c) as [Hp|Hp].
  2:{ assert (Hz : c / step = 0) by (replace c with 0 by lia; apply Z.div_0_l; lia). rewrite Hz. cbn [Z.ltb Z.compare andb negb].
      destruct (sf_open s && (0 <? m)); cbn [negb]; do 3 eexists; (split; [reflexivity|]; split; [reflexivity|exact R]). }
  set (k := c / step) in *. assert (Hk : 0 < k) by nia. assert (0 <? k = true) as -> by lia. cbn [andb].
  unfold show. rewrite A5. destruct (Z.leb_spec k m) as [Hm|Hm].
  - assert (Hlt : (Z.to_nat (k - 1) < length ss)%nat) by (unfold m in Hm; lia). destruct (nth_error ss (Z.to_nat (k - 1))) as [x|] eqn:N; [|apply nth_error_None in N; lia].
    assert (0 <? m = true) as -> by (unfold m in *; lia). rewrite Z.eqb_refl. cbn [negb]. destruct (sf_open s) eqn:O; cbn [andb negb].
    2:{ do 3 eexists. split; [reflexivity|]. split; [reflexivity|exact R]. }
    assert (R1 : rel (Player (py_header p) (py_content p) (streamoffForSnapshot (py_header p) (k - 1)) (k - 1) true) (Shelf ss step (Z.to_nat (k - 1)) true)).
    { unfold rel. cbn [py_header py_content py_current py_open py_pos sf_all sf_step sf_shown sf_open]. rewrite (streamoff n _ step m (k - 1) A1 F) by lia.
      repeat (split; [assumption|]). split; [reflexivity|]. split; [reflexivity|]. split; [lia|]. split; [lia|]. split; reflexivity. }
    destruct (next_rel _ _ R1) as (p' & E & R'). unfold show in E, R'. cbn [sf_all sf_shown sf_open sf_step] in E, R'. rewrite N in E, R'. cbn [fst snd] in E, R'.
    exists p', (Shelf ss step (S (Z.to_nat (k - 1))) true), (Shown x). split; [exact E|]. split; [rewrite ?A5, ?A6; reflexivity|exact R'].
  - assert (nth_error ss (Z.to_nat (k - 1)) = None) as -> by (apply nth_error_None; unfold m in Hm; lia).
    destruct (sf_open s && (0 <? m)); cbn [negb]; do 3 eexists; (split; [reflexivity|]; split; [reflexivity|exact R]).
Qed.
Lemma total_small : is_word64 (m * step).
Proof using F. destruct F as (A & B & _ & _ & _ & C). unfold is_word64. assert (0 <= m * step) by (apply Z.mul_nonneg_nonneg; unfold m; lia). lia. Qed.
Lemma show_last s : rel (Player (Header 0 0 n m step) content (33 + Z.of_nat (sf_shown s) * size_of n) (Z.of_nat (sf_shown s)) (sf_open s)) s ->
  shelf_move (Jump (m * step)) s = shelf_move Last s.
Proof using F.
  clear G H. intros (_ & _ & _ & _ & A5 & A6 & _). unfold shelf_move. rewrite A5, A6. assert (Hs : 0 < step) by apply F. rewrite Z.mod_mul by lia. cbn [andb Z.eqb].
  destruct ss as [|x l] eqn:E; [reflexivity|]. assert (0 <? m * step = true) as -> by (apply Z.ltb_lt, Z.mul_pos_pos; unfold m; cbn [length]; lia).
  rewrite Z.div_mul by lia. f_equal. f_equal. unfold m. lia.
Qed.
Lemma nav_rel p s nv : rel p s -> legal_nav nv -> match shelf_move nv s with
  | Some (s', r) => exists p', navigate n nv p = Some (p', r) /\ rel p' s'
  | None => navigate n nv p = None end.
Proof using F G H.
  intros R Ln. pose proof R as (A1 & A2 & A3 & A4 & A5 & A6 & A7 & A8 & A9 & A10). destruct nv; cbn [navigate].
  - cbn [shelf_move]. destruct (next_rel p s R) as (p' & E & R'). destruct (show (sf_shown s) s) as [s' r]. exists p'. auto.
  - rewrite <- show_last. 2:{ unfold rel. cbn [py_header py_content py_current py_open py_pos hd_particles hd_step hd_snapshots]. repeat (split; [assumption || reflexivity|]). reflexivity. }
    unfold lastSnapshot. rewrite A2, A3. pose proof total_small as Ht. rewrite wrap_small by exact Ht. destruct (jump_rel p s _ R Ht) as (p' & s' & r & -> & -> & R'). eauto.
  - destruct (jump_rel p s _ R Ln) as (p' & s' & r & -> & -> & R'). eauto.
  - cbn [shelf_move]. unfold resetPlayer. rewrite A9. destruct (sf_open s); [|reflexivity]. eexists. split; [reflexivity|]. unfold rel, fresh_player.
    cbn [py_header py_content py_current py_open py_pos sf_all sf_step sf_shown sf_open]. repeat (split; [assumption || reflexivity || lia|]). reflexivity.
  - cbn [shelf_move]. eexists. split; [reflexivity|]. unfold rel, closePlayer. cbn [fst py_header py_content py_current py_open py_pos sf_all sf_step sf_shown sf_open].
    repeat (split; [assumption || reflexivity || lia|]). assumption.
Qed.
Lemma view_rel p s r : rel p s -> (r, hasNext p, getCurrentSnapshotCycles p, getTotalCycles p) = shelf_view r s.
Proof using F.
  intros (A1 & A2 & A3 & A4 & A5 & A6 & A7 & A8 & A9 & A10). unfold shelf_view, hasNext, getCurrentSnapshotCycles, getTotalCycles, sf_count. rewrite A2, A3, A5, A6, A8, A9. fold m.
  pose proof total_small as Ht. rewrite (Z.mul_comm step m), (wrap_small _ Ht). rewrite wrap_small; [reflexivity|]. unfold is_word64 in Ht.
  assert (Hs : 0 < step) by apply F. assert (Z.of_nat (sf_shown s) * step <= m * step) by (apply Z.mul_le_mono_nonneg_r; unfold m; lia). nia.
Qed.
Lemma play_rel : forall ns p s, rel p s -> Forall legal_nav ns -> play n ns p = leaf ns s.
Proof using F G H.
  induction ns as [|nv ns IH]; intros p s R L; [reflexivity|]. inversion L; subst. cbn [play leaf]. pose proof (nav_rel p s nv R ltac:(assumption)) as Hn.
  destruct (shelf_move nv s) as [[s' r]|]; [|rewrite Hn; reflexivity]. destruct Hn as (p' & -> & R'). cbn [obind fst snd]. rewrite (IH p' s' R') by assumption.
  destruct (leaf ns s'); [|reflexivity]. cbn [obind]. rewrite (view_rel p' s' r R'). reflexivity.
Qed.
Lemma fresh_rel h : hd_particles h = n -> hd_step h = step -> hd_snapshots h = m -> rel (fresh_player h content) (Shelf ss step 0 true).
Proof using. clear. intros A B C. unfold rel, fresh_player, getHeaderSize. cbn. repeat (split; [assumption || reflexivity || lia|]). lia. Qed.
Lemma fresh_plays h : hd_particles h = n -> hd_step h = step -> hd_snapshots h = m -> plays n step ss (fresh_player h content).
Proof using F G H. intros A B C. split; [exact A|]. split; [exact B|]. split; [exact C|]. intros ns L. apply play_rel; auto. apply fresh_rel; auto. Qed.

(** *** Truncated players *)
Variable k : nat.
Hypothesis K : (k <= length ss)%nat.
Let total := Z.of_nat k * step.
Definition relT (t : truncated) (s : shelf) : Prop := tp_total t = total /\ rel (tp_player t) s /\ (sf_shown s <= k)%nat.
Definition short (s : shelf) : shelf := Shelf (firstn k (sf_all s)) (sf_step s) (sf_shown s) (sf_open s).
Lemma shorten_show i s : rel (Player (Header 0 0 n m step) content (33 + Z.of_nat (sf_shown s) * size_of n) (Z.of_nat (sf_shown s)) (sf_open s)) s ->
  show i (short s) = if Nat.ltb i k then (short (fst (show i s)), snd (show i s)) else (short s, Refused).
Proof using.
  intros (_ & _ & _ & _ & A5 & _). unfold show, short. cbn [sf_all sf_step sf_open sf_shown]. rewrite A5, short_nth. destruct (Nat.ltb i k); [|reflexivity].
  destruct (nth_error ss i); [|cbn; rewrite ?A5; reflexivity]. destruct (sf_open s) eqn:O; cbn; rewrite ?A5, ?O; reflexivity.
Qed.
Lemma rel_shelf p s : rel p s -> rel (Player (Header 0 0 n m step) content (33 + Z.of_nat (sf_shown s) * size_of n) (Z.of_nat (sf_shown s)) (sf_open s)) s.
Proof using.
  intros (A1 & A2 & A3 & A4 & A5 & A6 & A7 & A8 & A9 & A10). unfold rel. cbn [py_header py_content py_current py_open py_pos hd_particles hd_step hd_snapshots].
  repeat (split; [assumption || reflexivity|]). reflexivity.
Qed.
Lemma show_shown i s : (sf_shown s <= k)%nat -> (i < k)%nat -> (sf_shown (fst (show i s)) <= k)%nat.
Proof using. clear. intros A B. unfold show. destruct (nth_error _ _); [destruct (sf_open s)|]; cbn; lia. Qed.
Lemma total_le : total <= m * step /\ is_word64 total.
Proof using F K.
  assert (Hs : 0 < step) by apply F. pose proof total_small as Ht. assert (total <= m * step) by (apply Z.mul_le_mono_nonneg_r; unfold m; lia). split; auto. unfold is_word64 in *.
  assert (0 <= total) by (apply Z.mul_nonneg_nonneg; lia). lia.
Qed.
Lemma current_small s : (sf_shown s <= length ss)%nat -> wrap (Z.of_nat (sf_shown s) * step) = Z.of_nat (sf_shown s) * step.
Proof using F.
  clear K total k. intros Hle. pose proof total_small as Ht. unfold is_word64 in Ht. apply wrap_small. assert (Hs : 0 < step) by apply F.
  assert (Z.of_nat (sf_shown s) * step <= m * step) by (apply Z.mul_le_mono_nonneg_r; unfold m; lia). nia.
Qed.
Lemma jumpT_rel t s c : relT t s -> is_word64 c -> c <= total ->
  exists p' s' r, jumpToSnapshot n c (tp_player t) = Some (p', r) /\ shelf_move (Jump c) (short s) = Some (short s', r) /\ relT (Truncated p' total) s'.
Proof using F G H K.
  intros (T1 & R & S) Hc Hle. destruct (jump_rel _ _ _ R Hc) as (p' & s' & r & E & M & R'). assert (Hs : 0 < step) by apply F.
  exists p', s', r. split; [exact E|]. pose proof R as (_ & _ & _ & _ & A5 & A6 & _). unfold shelf_move in *. cbn [short sf_step] in *. rewrite A6 in *. fold (short s).
  destruct ((c mod step =? 0) && (0 <? c)) eqn:C.
  - rewrite shorten_show by (apply (rel_shelf _ _ R)). pose proof (Z.div_mod c step ltac:(lia)) as Dm. apply andb_true_iff in C. destruct C as [C1 C2].
    apply Z.eqb_eq in C1. rewrite C1, Z.add_0_r in Dm. assert (Hk : c / step <= Z.of_nat k) by (unfold total in Hle; nia). assert (0 < c / step) by nia.
    assert (Nat.ltb (Z.to_nat (c / step - 1)) k = true) as -> by lia. injection M as M. rewrite M. cbn [fst snd]. split; [reflexivity|]. split; [reflexivity|].
    split; [exact R'|]. assert (Es : s' = fst (show (Z.to_nat (c / step - 1)) s)) by (rewrite M; reflexivity). rewrite Es. cbn [tp_player]. apply show_shown; auto. lia.
  - injection M as <- <-. split; [reflexivity|]. split; [reflexivity|]. split; [exact R'|exact S].
Qed.
Lemma lastT s p : rel p s -> shelf_move (Jump total) (short s) = shelf_move Last (short s).
Proof using F K.
  intros (_ & _ & _ & _ & A5 & A6 & _). unfold shelf_move. cbn [short sf_all sf_step]. rewrite A5, A6. assert (Hs : 0 < step) by apply F. unfold total. rewrite Z.mod_mul by lia. cbn [andb Z.eqb].
  fold (short s). destruct (firstn k ss) as [|x l] eqn:E.
  - assert (k = 0%nat) as ->. { apply (f_equal (@length snapshot)) in E. rewrite firstn_length in E. cbn [length] in E. lia. } reflexivity.
  - apply (f_equal (@length snapshot)) in E. rewrite firstn_length in E. cbn [length] in E. assert (Hk : (0 < k)%nat) by lia.
    assert (0 <? Z.of_nat k * step = true) as -> by (apply Z.ltb_lt, Z.mul_pos_pos; lia). rewrite Z.div_mul by lia. f_equal. f_equal. cbn [length]. lia.
Qed.
Lemma navT_rel t s nv : relT t s -> legal_nav nv -> match shelf_move nv (short s) with
  | Some (s', r) => exists t' s'', navigateT n nv t = Some (t', r) /\ s' = short s'' /\ relT t' s''
  | None => navigateT n nv t = None end.
Proof using F G H K.
  intros T Ln. pose proof T as (T1 & R & S). pose proof R as (A1 & A2 & A3 & A4 & A5 & A6 & A7 & A8 & A9 & A10). assert (Hs : 0 < step) by apply F.
  destruct t as [p tt]. cbn [tp_player tp_total] in *. subst tt. destruct nv; cbn [navigateT tp_player tp_total].
  - cbn [shelf_move]. cbn [short sf_shown]. fold (short s). rewrite shorten_show by (apply (rel_shelf _ _ R)). unfold getCurrentSnapshotCycles. rewrite A8, A2, current_small by assumption.
    destruct (Nat.ltb_spec (sf_shown s) k) as [Hk|Hk].
    + assert (total <=? Z.of_nat (sf_shown s) * step = false) as -> by (unfold total; nia). destruct (next_rel p s R) as (p' & -> & R'). cbn [obind].
      do 2 eexists. split; [reflexivity|]. split; [reflexivity|]. split; [reflexivity|]. split; [exact R'|]. apply show_shown; auto.
    + assert (total <=? Z.of_nat (sf_shown s) * step = true) as -> by (unfold total; nia). do 2 eexists. split; [reflexivity|]. split; [reflexivity|exact T].
  - rewrite <- (lastT s p R). pose proof total_le as [_ Ht]. destruct (jumpT_rel _ s total T Ht ltac:(lia)) as (p' & s' & r & E & -> & T'). cbn [tp_player] in E. rewrite E. cbn [obind].
    do 2 eexists. split; [reflexivity|]. split; [reflexivity|exact T'].
  - destruct (Z.ltb_spec total cycle) as [Hc|Hc].
    + destruct (shelf_move (Jump cycle) (short s)) as [[s' r]|] eqn:M.
      * exists (Truncated p total), s. unfold shelf_move in M. cbn [short sf_step] in M. fold (short s) in M. rewrite A6 in M. destruct ((cycle mod step =? 0) && (0 <? cycle)) eqn:C.
        -- rewrite shorten_show in M by (apply (rel_shelf _ _ R)). pose proof (Z.div_mod cycle step ltac:(lia)) as Dm. apply andb_true_iff in C. destruct C as [C1 C2].
           apply Z.eqb_eq in C1. rewrite C1, Z.add_0_r in Dm. assert (Hk : Z.of_nat k < cycle / step) by (unfold total in Hc; nia).
           assert (Nat.ltb (Z.to_nat (cycle / step - 1)) k = false) as Eq by lia. rewrite Eq in M. injection M as <- <-. split; [reflexivity|]. split; [reflexivity|exact T].
        -- injection M as <- <-. split; [reflexivity|]. split; [reflexivity|exact T].
      * unfold shelf_move in M. destruct (_ && _); discriminate.
    + destruct (jumpT_rel _ s cycle T Ln Hc) as (p' & s' & r & E & -> & T'). cbn [tp_player] in E. rewrite E. cbn [obind].
      do 2 eexists. split; [reflexivity|]. split; [reflexivity|exact T'].
  - cbn [shelf_move]. cbn [short sf_open]. pose proof (nav_rel p s Reset R I) as Hn. cbn [shelf_move navigate] in Hn. destruct (sf_open s); [|rewrite Hn; reflexivity].
    destruct Hn as (p' & -> & R'). cbn [obind]. do 2 eexists. split; [reflexivity|]. split; [|split; [reflexivity|]; split; [exact R'|cbn; lia]]. reflexivity.
  - cbn [shelf_move]. pose proof (nav_rel p s Close R I) as Hn. cbn [shelf_move navigate] in Hn. destruct Hn as (p' & E & R'). injection E as E. subst p'.
    do 2 eexists. split; [reflexivity|]. split; [|split; [reflexivity|]; split; [exact R'|cbn; exact S]]. reflexivity.
Qed.
Lemma viewT_rel t s r : relT t s -> (r, hasNextT t, getCurrentSnapshotCycles (tp_player t), tp_total t) = shelf_view r (short s).
Proof using F K.
  intros (T1 & R & S). pose proof R as (A1 & A2 & A3 & A4 & A5 & A6 & A7 & A8 & A9 & A10). unfold shelf_view, hasNextT, hasNext, getCurrentSnapshotCycles, sf_count.
  rewrite A2, A3, A8, A9, T1. rewrite current_small by assumption. cbn [short sf_all sf_step sf_shown sf_open]. rewrite A5, A6, firstn_length, Nat.min_l by exact K. fold total.
  f_equal. f_equal. f_equal. assert (Hs : 0 < step) by apply F. rewrite <- andb_assoc. f_equal.
  destruct (Z.ltb_spec (Z.of_nat (sf_shown s)) (Z.of_nat k)) as [Hk|Hk].
  - assert (Z.of_nat (sf_shown s) <? m = true) as -> by (unfold m; lia). cbn [andb]. unfold total. nia.
  - assert (Z.of_nat (sf_shown s) * step <? total = false) as -> by (unfold total; nia). apply andb_false_r.
Qed.
Lemma playT_rel : forall ns t s, relT t s -> Forall legal_nav ns -> playT n ns t = leaf ns (short s).
Proof using F G H K.
  induction ns as [|nv ns IH]; intros t s R L; [reflexivity|]. inversion L; subst. cbn [playT leaf]. pose proof (navT_rel t s nv R ltac:(assumption)) as Hn.
  destruct (shelf_move nv (short s)) as [[s' r]|]; [|rewrite Hn; reflexivity]. destruct Hn as (t' & s'' & -> & -> & R'). cbn [obind fst snd]. rewrite (IH t' s'' R') by assumption.
  destruct (leaf ns (short s'')); [|reflexivity]. cbn [obind]. rewrite (viewT_rel t' s'' r R'). reflexivity.
Qed.
Lemma truncated_plays h : hd_particles h = n -> hd_step h = step -> hd_snapshots h = m ->
  exists t, newTruncated (fresh_player h content) total = Some t /\ forall ns, Forall legal_nav ns -> playT n ns t = leaf ns (Shelf (firstn k ss) step 0 true).
Proof using F G H K.
  intros A B C. unfold newTruncated, getTotalCycles. cbn [py_header fresh_player resetPlayer py_open]. rewrite B, C. pose proof total_le as [Hle Hw]. pose proof total_small as Ht.
  rewrite (Z.mul_comm step m), wrap_small by exact Ht. assert (total <=? m * step = true) as -> by lia. cbn [negb]. assert (Hs : 0 < step) by apply F.
  destruct (Z.eqb_spec step 0); [lia|]. unfold total at 1. rewrite Z.mod_mul by lia. cbn [Z.eqb negb obind fst]. eexists. split; [reflexivity|]. intros ns L.
  apply (playT_rel ns _ (Shelf ss step 0 true)); auto. split; [reflexivity|]. split; [|cbn; lia]. apply (fresh_rel h A B C).
Qed.
End player.

(** A truncated player can be made exactly for multiples of the step not beyond the end. *)
Lemma truncated_refused h content total n step m : hd_particles h = n -> hd_step h = step -> hd_snapshots h = m -> fits n step m -> 0 <= m ->
  total > m * step \/ total mod step <> 0 -> newTruncated (fresh_player h content) total = None.
Proof.
  intros A B C F Hm Hc. unfold newTruncated, getTotalCycles. cbn [py_header fresh_player resetPlayer py_open]. rewrite B, C. destruct F as (F1 & F2 & _ & _ & _ & F3).
  rewrite (Z.mul_comm step m), wrap_small by nia. destruct (Z.leb_spec total (m * step)); [|reflexivity]. cbn [negb]. destruct (step =? 0); [reflexivity|].
  destruct (Z.eqb_spec (total mod step) 0); [lia|reflexivity].
Qed.
