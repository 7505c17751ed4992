From Coq Require Import ZArith List Bool Lia ZifyBool ZifyNat.
From Verif Require Import OptModel TrjModel TrjSpec.
Import ListNotations.
Open Scope Z_scope.

(** *** Numbers *)
Lemma bytes_length n : forall w, length (bytes_of n w) = n.
Proof. induction n; simpl; auto. Qed.
Lemma of_bytes_value l : of_bytes l = value l.
Proof. reflexivity. Qed.
Lemma bytes_bytes n : forall w, Forall is_byte (bytes_of n w).
Proof. induction n; simpl; intros; constructor; auto. unfold is_byte. apply Z.mod_pos_bound. lia. Qed.
Lemma bytes_value n : forall w, value (bytes_of n w) = w mod 256 ^ Z.of_nat n.
Proof.
  induction n; intros w.
  - simpl. rewrite Z.mod_1_r. reflexivity.
  - cbn [bytes_of value fold_right]. fold (value (bytes_of n (w / 256))). rewrite IHn, Nat2Z.inj_succ, Z.pow_succ_r by lia.
    rewrite Z.rem_mul_r by lia. lia.
Qed.
Lemma stored_bytes w : is_word64 w -> stored w (word_bytes w).
Proof.
  intros H. split; [apply bytes_length|]. split; [apply bytes_bytes|]. unfold word_bytes. rewrite bytes_value. apply Z.mod_small. exact H.
Qed.
Lemma value_bound l : Forall is_byte l -> 0 <= value l < 256 ^ Z.of_nat (length l).
Proof.
  induction 1 as [|b l Hb _ IH]; [simpl; lia|]. cbn [value fold_right length]. fold (value l). rewrite Nat2Z.inj_succ, Z.pow_succ_r by lia. unfold is_byte in Hb. lia.
Qed.
Lemma value_inj : forall l l', Forall is_byte l -> Forall is_byte l' -> length l = length l' -> value l = value l' -> l = l'.
Proof.
  induction l as [|b l IH]; intros [|b' l'] H H' L E; try discriminate; auto. inversion H; inversion H'; subst. cbn [value fold_right] in E. fold (value l) (value l') in E.
  injection L as L. unfold is_byte in *. assert (b = b' /\ value l = value l') as [-> E'] by lia. f_equal. auto.
Qed.
Lemma stored_unique w l : stored w l -> l = word_bytes w.
Proof.
  intros (L & B & E). pose proof (value_bound l B) as Hv. rewrite L in Hv. apply value_inj; [exact B|apply bytes_bytes|rewrite L; symmetry; apply bytes_length|].
  unfold word_bytes. rewrite bytes_value. rewrite E in *. symmetry. apply Z.mod_small. exact Hv.
Qed.
Lemma stored_iff w l : is_word64 w -> (stored w l <-> l = word_bytes w).
Proof. intros H. split; [apply stored_unique|intros ->; apply stored_bytes; auto]. Qed.
Lemma of_word w : is_word64 w -> of_bytes (word_bytes w) = w.
Proof. intros H. rewrite of_bytes_value. apply (stored_bytes w H). Qed.
Lemma word_length w : length (word_bytes w) = 8%nat. Proof. apply bytes_length. Qed.
Lemma words_length ws : length (words_bytes ws) = (8 * length ws)%nat.
Proof. unfold words_bytes. induction ws; [reflexivity|]. cbn [map concat length]. rewrite app_length, word_length, IHws. lia. Qed.
Lemma words_app a b : words_bytes (a ++ b) = words_bytes a ++ words_bytes b.
Proof. unfold words_bytes. rewrite map_app, concat_app. reflexivity. Qed.
Lemma words_cons w ws : words_bytes (w :: ws) = word_bytes w ++ words_bytes ws. Proof. reflexivity. Qed.

(** *** Reading *)
Lemma read_mid a b c n : length b = n -> read_at (length a) n (a ++ b ++ c) = Some b.
Proof.
  intros <-. unfold read_at. rewrite skipn_app, skipn_all, Nat.sub_diag. cbn [app skipn]. rewrite firstn_app, firstn_all, Nat.sub_diag. cbn [firstn]. rewrite app_nil_r, Nat.eqb_refl. reflexivity.
Qed.
Lemma read_at_mid a b c n pos : length a = pos -> length b = n -> read_at pos n (a ++ b ++ c) = Some b.
Proof. intros <-. apply read_mid. Qed.
Lemma read_short pos n l : (length l < pos + n)%nat -> (0 < n)%nat -> read_at pos n l = None.
Proof. intros H Hn. unfold read_at. destruct (Nat.eqb_spec (length (firstn n (skipn pos l))) n) as [E|]; [|reflexivity]. rewrite firstn_length, skipn_length in E. lia. Qed.
Lemma read_words_mid : forall ws a c pos, length a = pos -> Forall is_word64 ws -> read_words (length ws) pos (a ++ words_bytes ws ++ c) = Some (ws, (pos + 8 * length ws)%nat).
Proof.
  induction ws as [|w ws IH]; intros a c pos L F; [cbn [length read_words]; f_equal; f_equal; lia|]. inversion F; subst. cbn [length read_words].
  rewrite words_cons, <- app_assoc. rewrite (read_at_mid a (word_bytes w) _ 8 (length a)) by auto using word_length. cbn [obind].
  rewrite (app_assoc a). rewrite (IH (a ++ word_bytes w) c (length a + 8)%nat); auto; [|rewrite app_length, word_length; lia]. cbn [obind fst snd]. rewrite of_word by auto. f_equal. f_equal. lia.
Qed.
Lemma read_words_n n ws a c pos : length a = pos -> Forall is_word64 ws -> length ws = n -> read_words n pos (a ++ words_bytes ws ++ c) = Some (ws, (pos + 8 * n)%nat).
Proof. intros L F <-. apply read_words_mid; auto. Qed.

(** *** Snapshots *)
Definition snap_bytes (s : snapshot) : list Z := words_bytes (numbers s).
Lemma pieces_iff ws l : Forall is_word64 ws -> ((exists pieces, l = concat pieces /\ Forall2 stored ws pieces) <-> l = words_bytes ws).
Proof.
  intros F. split.
  - intros (ps & -> & H). unfold words_bytes. f_equal. induction H as [|w p ws ps H _ IH]; [reflexivity|]. inversion F; subst. cbn [map]. rewrite (stored_unique _ _ H), IH; auto.
  - intros ->. exists (map word_bytes ws). split; [reflexivity|]. induction F; constructor; auto. apply stored_bytes; auto.
Qed.
Lemma numbers_words n s : good_snapshot n s -> Forall is_word64 (numbers s).
Proof.
  intros (_ & B & _ & S). unfold numbers. apply Forall_app. split; auto. apply Forall_forall. intros x Hx. apply in_flat_map in Hx. destruct Hx as (sh & Hs & Hx).
  rewrite Forall_forall in S. destruct (S sh Hs) as (_ & _ & F1 & F2). apply in_app_or in Hx. rewrite Forall_forall in F1, F2. destruct Hx; auto.
Qed.
Lemma snap_iff n s l : good_snapshot n s -> (snapshot_bytes s l <-> l = snap_bytes s).
Proof. intros G. apply pieces_iff. apply (numbers_words n s G). Qed.
Lemma data_iff n ss l : Forall (good_snapshot n) ss -> (data_bytes ss l <-> l = concat (map snap_bytes ss)).
Proof.
  intros F. split.
  - intros (ps & -> & H). f_equal. induction H as [|s p ss ps H _ IH]; [reflexivity|]. inversion F; subst. cbn [map]. f_equal; [apply (snap_iff n); auto|auto].
  - intros ->. exists (map snap_bytes ss). split; [reflexivity|]. induction F; constructor; auto. apply (snap_iff n); auto.
Qed.
Lemma header_iff n k step l : is_word64 n -> is_word64 k -> is_word64 step -> (header_bytes n k step l <-> l = writeHeader (Header 1 1 n k step)).
Proof.
  intros A B C. split.
  - intros (a & b & c & -> & Ha & Hb & Hc). rewrite (stored_unique _ _ Ha), (stored_unique _ _ Hb), (stored_unique _ _ Hc). reflexivity.
  - intros ->. exists (word_bytes n), (word_bytes k), (word_bytes step). split; [reflexivity|]. split; [|split]; apply stored_bytes; auto.
Qed.
Lemma shapes_length n ss : Forall (fun sh : list Z * list Z => length (fst sh) = 3%nat /\ length (snd sh) = 3%nat /\ Forall is_word64 (fst sh) /\ Forall is_word64 (snd sh)) ss -> length ss = n ->
  length (flat_map (fun sh => fst sh ++ snd sh) ss) = (6 * n)%nat.
Proof. intros F <-. induction F as [|sh ss (A & B & _) _ IH]; [reflexivity|]. cbn [flat_map length]. rewrite !app_length, A, B, IH. lia. Qed.
Lemma snap_length n s : good_snapshot n s -> Z.of_nat (length (snap_bytes s)) = size_of n.
Proof.
  intros (A & _ & B & S). unfold snap_bytes. rewrite words_length. unfold numbers. rewrite app_length, A, (shapes_length _ _ S eq_refl). unfold size_of. lia.
Qed.
Lemma data_length n ss : Forall (good_snapshot n) ss -> Z.of_nat (length (concat (map snap_bytes ss))) = Z.of_nat (length ss) * size_of n.
Proof. induction 1 as [|s ss H _ IH]; [reflexivity|]. cbn [map concat length]. rewrite app_length, Nat2Z.inj_add, (snap_length n s H), IH. lia. Qed.

(** Written bytes. *)
Lemma written s : puts (writeBox (sn_box s)) ++ concat (map (fun sh => puts (writeShape sh)) (sn_shapes s)) = puts (snap_bytes s).
Proof.
  unfold snap_bytes, numbers, writeBox, puts. rewrite words_app, map_app. f_equal. induction (sn_shapes s) as [|sh l IH]; [reflexivity|]. cbn [map concat flat_map].
  rewrite IH, words_app, map_app. unfold writeShape. rewrite words_app. reflexivity.
Qed.

(** Reading a snapshot back. *)
Lemma read_shape_mid sh a c pos : length (fst sh) = 3%nat -> length (snd sh) = 3%nat -> Forall is_word64 (fst sh) -> Forall is_word64 (snd sh) -> length a = pos ->
  readShape pos (a ++ words_bytes (fst sh ++ snd sh) ++ c) = Some (sh, (pos + 48)%nat).
Proof.
  intros A B C D L. unfold readShape. rewrite words_app, <- app_assoc. rewrite (read_words_n 3 (fst sh)) by auto. cbn [obind fst snd].
  rewrite app_assoc. rewrite (read_words_n 3 (snd sh)) by (auto; rewrite app_length, words_length; lia). cbn [obind fst snd]. destruct sh. f_equal. f_equal. lia.
Qed.
Lemma read_shapes_mid : forall ss a c pos, Forall (fun sh : list Z * list Z => length (fst sh) = 3%nat /\ length (snd sh) = 3%nat /\ Forall is_word64 (fst sh) /\ Forall is_word64 (snd sh)) ss -> length a = pos ->
  readShapes (length ss) pos (a ++ words_bytes (flat_map (fun sh => fst sh ++ snd sh) ss) ++ c) = Some (ss, (pos + 48 * length ss)%nat).
Proof.
  induction ss as [|sh ss IH]; intros a c pos F L; [cbn; f_equal; f_equal; lia|]. inversion F as [|? ? (A & B & C & D) F']; subst. cbn [length readShapes flat_map].
  rewrite words_app, <- app_assoc. rewrite read_shape_mid by auto. cbn [obind fst snd]. rewrite app_assoc. rewrite IH; auto; [|rewrite !app_length, words_length, app_length; lia].
  cbn [obind fst snd]. f_equal. f_equal. lia.
Qed.
Lemma read_snapshot n s a c : good_snapshot n s ->
  exists pos', readBox (length a) (a ++ snap_bytes s ++ c) = Some (sn_box s, pos') /\
    readShapes (Z.to_nat n) pos' (a ++ snap_bytes s ++ c) = Some (sn_shapes s, (length a + length (snap_bytes s))%nat).
Proof.
  intros G. pose proof (snap_length n s G) as Hl. destruct G as (A & B & C & D). exists (length a + 72)%nat. unfold readBox. split.
  - unfold snap_bytes, numbers. rewrite words_app, <- app_assoc. rewrite (read_words_n 9) by auto. reflexivity.
  - replace (Z.to_nat n) with (length (sn_shapes s)) by lia. unfold snap_bytes at 1, numbers. rewrite words_app, <- app_assoc, app_assoc.
    rewrite read_shapes_mid; auto; [|rewrite app_length, words_length; lia]. f_equal. f_equal. unfold size_of in Hl. lia.
Qed.

(** *** The header *)
Lemma header_length h : length (writeHeader h) = 33%nat.
Proof. unfold writeHeader. rewrite !app_length, !word_length. reflexivity. Qed.
Lemma bytes_eqb_refl l : bytes_eqb l l = true.
Proof. induction l; simpl; auto. rewrite Z.eqb_refl. auto. Qed.
Lemma read_header n k step c : is_word64 n -> is_word64 k -> is_word64 step -> 0 < n -> 0 < step ->
  readHeader (writeHeader (Header 1 1 n k step) ++ c) = Some (Header 1 1 n k step).
Proof.
  intros A B C Hn Hs. unfold readHeader, writeHeader. cbn [hd_minor hd_major hd_particles hd_snapshots hd_step].
  set (l := _ ++ c). assert (L0 : l = [] ++ magic ++ ([1; 1] ++ word_bytes n ++ word_bytes k ++ word_bytes step ++ c)).
  { unfold l. rewrite <- !app_assoc. reflexivity. }
  rewrite L0 at 1. rewrite (read_at_mid [] magic _ 7 0) by reflexivity. cbn [obind]. rewrite bytes_eqb_refl. cbn [negb].
  assert (L1 : l = magic ++ [1] ++ ([1] ++ word_bytes n ++ word_bytes k ++ word_bytes step ++ c)) by (rewrite L0; reflexivity).
  rewrite L1 at 1. rewrite (read_at_mid magic [1] _ 1 7) by reflexivity. cbn [obind].
  assert (L2 : l = (magic ++ [1]) ++ [1] ++ (word_bytes n ++ word_bytes k ++ word_bytes step ++ c)) by (rewrite L0; reflexivity).
  rewrite L2 at 1. rewrite (read_at_mid (magic ++ [1]) [1] _ 1 8) by reflexivity. cbn [obind nth Z.eqb Z.leb]. change (1 =? 1) with true. change (1 <=? 1) with true. cbn [andb negb].
  assert (W : forall w, words_bytes [w] = word_bytes w) by (intros w; unfold words_bytes; cbn [map concat]; apply app_nil_r).
  assert (L3 : l = (magic ++ [1; 1]) ++ words_bytes [n] ++ (word_bytes k ++ word_bytes step ++ c)) by (rewrite L0, W; reflexivity).
  rewrite L3 at 1. rewrite (read_words_n 1 [n]) by (auto; reflexivity). cbn [obind fst snd nth].
  assert (L4 : l = ((magic ++ [1; 1]) ++ word_bytes n) ++ words_bytes [k] ++ (word_bytes step ++ c)) by (rewrite L0, W, <- !app_assoc; reflexivity).
  rewrite L4 at 1. rewrite (read_words_n 1 [k]) by (auto; rewrite app_length, word_length; reflexivity). cbn [obind fst snd nth].
  assert (L5 : l = (((magic ++ [1; 1]) ++ word_bytes n) ++ word_bytes k) ++ words_bytes [step] ++ c) by (rewrite L0, W, <- !app_assoc; reflexivity).
  rewrite L5 at 1. rewrite (read_words_n 1 [step]) by (auto; rewrite !app_length, !word_length; reflexivity). cbn [obind fst snd nth hd_particles hd_step].
  assert (Z.ltb 0 n = true) as -> by lia. assert (Z.ltb 0 step = true) as -> by lia. reflexivity.
Qed.
Lemma header_short l : (length l < 33)%nat -> readHeader l = None.
Proof.
  intros H. unfold readHeader. destruct (read_at 0 7 l) as [m|]; [|reflexivity]. cbn [obind]. destruct (negb _); [reflexivity|].
  destruct (read_at 7 1 l) as [a|]; [|reflexivity]. cbn [obind]. destruct (read_at 8 1 l) as [b|]; [|reflexivity]. cbn [obind]. destruct (negb _); [reflexivity|].
  destruct (read_words 1 9 l) as [[n p]|] eqn:E; [|reflexivity]. cbn [obind fst snd].
  assert (P : p = 17%nat). { cbn [read_words] in E. destruct (read_at 9 8 l); [|discriminate]. cbn in E. injection E as _ <-. reflexivity. } subst p.
  destruct (read_words 1 17 l) as [[k p]|] eqn:E2; [|reflexivity]. cbn [obind fst snd].
  assert (P : p = 25%nat). { cbn [read_words] in E2. destruct (read_at 17 8 l); [|discriminate]. cbn in E2. injection E2 as _ <-. reflexivity. } subst p.
  cbn [read_words]. rewrite read_short by lia. reflexivity.
Qed.

(** *** Files *)
Lemma put_end b l : put_at (length l) b l = l ++ [b].
Proof. induction l; simpl; auto. rewrite IHl. reflexivity. Qed.
Lemma puts_end : forall bs l, perform (puts bs) (File l (length l)) = File (l ++ bs) (length (l ++ bs)).
Proof.
  induction bs as [|b bs IH]; intros l; [cbn; rewrite app_nil_r; reflexivity|]. cbn [puts map]. unfold perform. cbn [fold_left]. cbn [io_step fl_pos fl_bytes]. rewrite put_end.
  replace (S (length l)) with (length (l ++ [b])) by (rewrite app_length; simpl; lia). fold (puts bs). fold (perform (puts bs) (File (l ++ [b]) (length (l ++ [b])))). rewrite IH, <- app_assoc. reflexivity.
Qed.
Lemma put_mid b x l : forall a, put_at (length a) b (a ++ x :: l) = a ++ b :: l.
Proof. induction a; simpl; auto. rewrite IHa. reflexivity. Qed.
Lemma puts_over : forall bs a l, (length bs <= length l)%nat ->
  perform (puts bs) (File (a ++ l) (length a)) = File (a ++ bs ++ skipn (length bs) l) (length a + length bs).
Proof.
  induction bs as [|b bs IH]; intros a l H; [cbn; f_equal; lia|]. destruct l as [|x l]; [cbn in H; lia|]. cbn [puts map]. unfold perform. cbn [fold_left]. cbn [io_step fl_pos fl_bytes].
  rewrite put_mid. fold (puts bs). change (a ++ b :: l) with (a ++ [b] ++ l). rewrite app_assoc. replace (S (length a)) with (length (a ++ [b])) by (rewrite app_length; simpl; lia).
  fold (perform (puts bs) (File ((a ++ [b]) ++ l) (length (a ++ [b])))). rewrite IH by (cbn in H; lia). cbn [length skipn]. rewrite <- app_assoc. cbn [app]. f_equal. rewrite app_length; simpl; lia.
Qed.
Lemma perform_app a b f : perform (a ++ b) f = perform b (perform a f).
Proof. unfold perform. apply fold_left_app. Qed.
