From Coq Require Import Reals ZArith List Bool Lia ZifyBool ZifyNat String.
From Verif Require Import TextModel TextProofs LinesModel LinesSpec LinesProofs StringsModel StringsSpec StringsProofs
  GeomModel PbcModel RotModel RotSpec XyzModel XyzSpec XyzTextProofs XyzRecProofs OptModel.
Import ListNotations.
Local Open Scope list_scope.
Open Scope Z_scope.

Definition unlines (ls : list (list Z)) : list Z := flat_map (fun l => l ++ [newline]) ls.
Lemma unlines_app a b : unlines (a ++ b) = unlines a ++ unlines b. Proof. apply flat_map_app. Qed.
Lemma joined_unlines : forall ls x, joined newline (ls ++ [x]) = unlines ls ++ x.
Proof.
  induction ls as [|l ls IH]; intros x; [reflexivity|]. cbn [app unlines flat_map]. fold (unlines ls). rewrite <- !app_assoc. cbn [app]. rewrite <- IH. destruct ls; reflexivity.
Qed.
Lemma unlines_pieces ls x : List.Forall (List.Forall (fun c => c <> newline)) (ls ++ [x]) -> pieces_of newline (unlines ls ++ x) (ls ++ [x]).
Proof. intros F. split; [destruct ls; discriminate|]. split; [exact F|]. symmetry. apply joined_unlines. Qed.

Lemma skip_skip {A} : forall m n (l : list A), skipn n (skipn m l) = skipn (m + n) l.
Proof. induction m as [|m IH]; intros n l; [reflexivity|]. destruct l; [destruct n; reflexivity|]. cbn [skipn Nat.add]. apply IH. Qed.

Section history.
Variable show : R -> list Z.
Hypothesis numerals : forall x, numeral (show x).
Definition before_cycles (p : packing) : list Z := head_line show (pk_box p) ++ [space].
Definition cycle_line (e : packing * Z) : list Z := before_cycles (fst e) ++ tx "cycles=" ++ decimal (snd e).
Definition frame_lines (e : packing * Z) : list (list Z) := count (fst e) :: cycle_line e :: List.map (atom_line show) (pk_shapes (fst e)).
Definition hist_lines (l : list (packing * Z)) : list (list Z) := flat_map frame_lines l.

Lemma digits_white d : List.Forall (fun c => is_digit c = true) d -> hasWhitespace d = false.
Proof. intros F. apply no_whitespace. eapply Forall_impl; [|exact F]. apply digit_not_space. Qed.
Lemma write_lines p c : xyz_write show p (cycles_pair c) = Some (unlines (frame_lines (p, c))).
Proof.
  rewrite write_text. cbn [cycles_pair storeAuxInfo]. change (hasWhitespace (tx "cycles")) with false. cbn iota. rewrite digits_white by apply decimal_digits. cbn [obind].
  f_equal. unfold frame_lines, cycle_line, before_cycles. cbn [fst snd unlines flat_map]. rewrite app_nil_r. repeat (rewrite <- app_assoc; cbn [app]). f_equal. f_equal. f_equal.
  change (tx "cycles=") with (tx "cycles" ++ tx "="). repeat (rewrite <- app_assoc; cbn [app]). do 4 f_equal. f_equal.
  unfold shapes_text. clear. induction (pk_shapes p) as [|s ss IH]; [reflexivity|]. cbn [flat_map List.map]. rewrite atom_text, IH. reflexivity.
Qed.
Lemma texts_lines : forall l t, texts show l t <-> t = unlines (hist_lines l).
Proof.
  induction l as [|[p c] l IH]; intros t; cbn [hist_lines flat_map].
  - split; [intros T; inversion T; reflexivity|intros ->; constructor].
  - rewrite unlines_app. split.
    + intros T. inversion T as [|p' c' l' w t' W T' E1 E2]; subst. rewrite write_lines in W. injection W as <-. apply IH in T'. subst t'. reflexivity.
    + intros ->. constructor; [apply write_lines|apply IH; reflexivity].
Qed.

(** *** Lines which are not headers *)
Lemma count_header p : header (count p) = false.
Proof.
  unfold header, count. destruct (decimal_head (Z.of_nat (List.length (pk_shapes p))) []) as (c & r & -> & D & _). unfold startsWith. change (tx "Lattice") with (76 :: tx "attice"). cbn [List.length firstn text_eqb].
  unfold is_digit in D. destruct (Z.eqb_spec c 76); [subst; discriminate D|reflexivity].
Qed.
Lemma atom_header s : header (atom_line show s) = false. Proof. reflexivity. Qed.
Lemma short_header x : (List.length x < 7)%nat -> header x = false.
Proof. intros H. unfold header, startsWith. change (List.length (tx "Lattice")) with 7%nat. rewrite (proj2 (Nat.leb_gt 7 (List.length x)) H). apply andb_false_r. Qed.
Lemma prefix_header (a b x y : list Z) : (forall c r, a <> c :: r \/ c <> 76) -> a = x ++ y -> header x = false.
Proof.
  intros H E. destruct x as [|c x]; [reflexivity|]. unfold header, startsWith. change (tx "Lattice") with (76 :: tx "attice"). cbn [List.length firstn text_eqb].
  destruct (Z.eqb_spec c 76); [|reflexivity]. subst c. cbn [app] in E. destruct (H 76 (x ++ y)) as [A|A]; [destruct (A E)|destruct (A eq_refl)].
Qed.
Lemma digit_first p : forall c r, count p <> c :: r \/ c <> 76.
Proof.
  intros c r. unfold count. destruct (decimal_head (Z.of_nat (List.length (pk_shapes p))) []) as (c' & r' & -> & D & _). unfold is_digit in D. destruct (Z.eq_dec c 76) as [->|]; [|auto].
  left. intros [= -> ->]. discriminate D.
Qed.
Lemma atoms_header ss : List.Forall (fun l => header l = false) (List.map (atom_line show) ss).
Proof. induction ss; constructor; auto. Qed.
Lemma head_split b : exists r, head_line show b = tx "Lattice" ++ r.
Proof. unfold head_line. change (tx "Lattice=""") with (tx "Lattice" ++ tx "="""). rewrite <- app_assoc. eauto. Qed.
Lemma lattice_header r : header (tx "Lattice" ++ r) = true. Proof. apply startsWith_iff. eauto. Qed.
Lemma cycle_header e : header (cycle_line e) = true.
Proof. unfold cycle_line, before_cycles. destruct (head_split (pk_box (fst e))) as [r ->]. rewrite <- !app_assoc. apply lattice_header. Qed.
Lemma before_y p : no_y (before_cycles p). Proof. apply Forall_app. split; [apply head_y; exact numerals|repeat constructor; discriminate]. Qed.
Lemma digits_y d : digits d -> no_y d. Proof. intros F. eapply Forall_impl; [|exact F]. intros c D ->. discriminate D. Qed.
Lemma cycle_number e : 0 <= snd e < 2 ^ 64 -> number (cycle_line e) = Some (snd e).
Proof.
  intros H. unfold cycle_line. rewrite number_line by first [apply before_y | apply digits_y, decimal_digits].
  rewrite <- (app_nil_r (decimal (snd e))), extract_decimal by (cbn; auto). reflexivity.
Qed.
(** Nothing contains line ends. *)
Lemma before_newline p : List.Forall (fun c => c <> newline) (before_cycles p).
Proof. apply Forall_app. split; [apply head_newline; exact numerals|repeat constructor; discriminate]. Qed.
Lemma digits_newline d : digits d -> List.Forall (fun c => c <> newline) d.
Proof. intros F. eapply Forall_impl; [|exact F]. intros c D ->. discriminate D. Qed.
Lemma cycle_newline e : List.Forall (fun c => c <> newline) (cycle_line e).
Proof. apply Forall_app. split; [apply before_newline|]. apply Forall_app. split; [repeat constructor; discriminate|]. apply digits_newline, decimal_digits. Qed.
Lemma frame_newlines e : List.Forall (List.Forall (fun c => c <> newline)) (frame_lines e).
Proof.
  constructor; [apply count_newline|]. constructor; [apply cycle_newline|]. induction (pk_shapes (fst e)); constructor; auto. apply atom_newline. exact numerals.
Qed.
Lemma hist_newlines l : List.Forall (List.Forall (fun c => c <> newline)) (hist_lines l).
Proof. induction l; [constructor|]. apply Forall_app. split; [apply frame_newlines|exact IHl]. Qed.

(** The last snapshot of a history which is followed by other lines. *)
Lemma hist_find l e ss : 0 <= snd e < 2 ^ 64 -> List.Forall (fun x => header x = false) ss ->
  back_find (rev (hist_lines (l ++ [e]) ++ ss)) = Some (snd e, List.length (unlines (hist_lines l) ++ count (fst e))).
Proof.
  intros H F. unfold hist_lines at 1. rewrite flat_map_app. cbn [flat_map]. rewrite app_nil_r. unfold frame_lines at 2.
  replace ((flat_map frame_lines l ++ count (fst e) :: cycle_line e :: List.map (atom_line show) (pk_shapes (fst e))) ++ ss)
    with ((hist_lines l ++ [count (fst e)]) ++ cycle_line e :: (List.map (atom_line show) (pk_shapes (fst e)) ++ ss)) by (rewrite <- !app_assoc; reflexivity).
  rewrite back_hit by first [apply cycle_header | apply Forall_app; split; [apply atoms_header|exact F]]. rewrite cycle_number by exact H. cbn [obind]. rewrite joined_unlines. reflexivity.
Qed.

(** *** Recording *)
Lemma record_one p c s last : recordSnapshot show p c (Recorder (Some s) last) = Done (Recorder (Some (put (unlines (frame_lines (p, c))) s)) c).
Proof. unfold recordSnapshot. cbn [rc_out]. fold (cycles_pair c). rewrite write_lines. reflexivity. Qed.
Lemma put_put a b s : (io_put s <= List.length (io_text s))%nat -> put b (put a s) = put (a ++ b) s.
Proof.
  destruct s as [t g p j]. cbn [io_put io_text]. intros L. unfold put. cbn [io_put io_text io_get io_joint seekp]. unfold seekp. cbn [io_put io_text io_get io_joint].
  assert (Lp : List.length (firstn p t) = p) by (rewrite firstn_length; lia). rewrite app_length.
  f_equal; [|destruct j; lia|lia].
  rewrite firstn_app, Lp, firstn_all2 by lia. replace (p + List.length a - p)%nat with (List.length a) by lia.
  rewrite firstn_app, firstn_all, Nat.sub_diag. cbn [firstn]. rewrite app_nil_r. rewrite <- !app_assoc. do 3 f_equal.
  rewrite skipn_app, Lp, skipn_all2 by lia. cbn [app]. replace (p + List.length a + List.length b - p)%nat with (List.length a + List.length b)%nat by lia.
  rewrite skipn_app, skipn_all2 by lia. cbn [app]. replace (List.length a + List.length b - List.length a)%nat with (List.length b) by lia.
  rewrite skip_skip. f_equal. lia.
Qed.
Definition sound (s : iostream) : Prop := (io_put s <= List.length (io_text s))%nat /\ (io_joint s = true -> io_get s = io_put s).
Lemma put_sound a s : sound s -> sound (put a s).
Proof.
  destruct s as [t g p j]. intros [L J]. unfold put, seekp, sound in *. cbn [io_put io_text io_get io_joint] in *. split; [|intros ->; reflexivity].
  rewrite !app_length, firstn_length, skipn_length. lia.
Qed.
Lemma put_nil s : sound s -> put [] s = s.
Proof.
  destruct s as [t g p j]. intros [L J]. unfold put, seekp, sound in *. cbn [io_put io_text io_get io_joint] in *. cbn [app List.length]. rewrite Nat.add_0_r, firstn_skipn. f_equal. destruct j; auto. symmetry. apply J. reflexivity.
Qed.
Lemma record_list : forall l s la, sound s -> record_all show l (Recorder (Some s) la) = Done (Recorder (Some (put (unlines (hist_lines l)) s)) (last (List.map snd l) la)).
Proof.
  induction l as [|[p c] l IH]; intros s la S; cbn [record_all].
  - cbn [hist_lines flat_map unlines List.map last]. rewrite put_nil by exact S. reflexivity.
  - rewrite record_one. cbn [bind_outcome]. rewrite IH by (apply put_sound; exact S). rewrite put_put by apply S. cbn [hist_lines flat_map]. rewrite unlines_app. do 2 f_equal.
    cbn [List.map snd]. destruct l as [|[p' c'] l]; [reflexivity|]. cbn [List.map snd]. generalize (List.map snd l) as m. clear. intros m. change (last (c :: c' :: m) la) with (last (c' :: m) la).
    revert c'. induction m as [|x m IH]; intros c'; [reflexivity|]. change (last (c' :: x :: m) c) with (last (x :: m) c). change (last (c' :: x :: m) la) with (last (x :: m) la). apply IH.
Qed.
Lemma put_end w s : io_put s = List.length (io_text s) -> io_text (put w s) = io_text s ++ w.
Proof.
  destruct s as [t g p j]. cbn [io_put io_text]. intros ->. unfold put, seekp. cbn [io_put io_text io_get io_joint]. rewrite firstn_all, skipn_all2 by lia. rewrite app_nil_r. reflexivity.
Qed.

(** *** Frames of what has been recorded *)
Lemma cycles_plain c : plain_aux (cycles_pair c).
Proof.
  repeat constructor; try discriminate. cbn [snd]. eapply Forall_impl; [|apply decimal_digits]. cbn beta. intros x D. unfold is_digit, newline in *. lia.
Qed.
Lemma hist_frames l rest fr : proper_history l -> frames rest fr -> exists fs, history_frames show l fs /\ frames (unlines (hist_lines l) ++ rest) (fs ++ fr).
Proof.
  intros H Fr. induction l as [|[p c] l IH]; [exists []; split; [constructor|exact Fr]|]. destruct (IH (Forall_inv_tail H)) as (fs & Hf & Ff). destruct (Forall_inv H) as [Hp Hc]. cbn [fst snd] in *.
  destruct (frame_read show numerals p (cycles_pair c) Hp (cycles_plain c)) as (w & W & f & Of & Rf). rewrite write_lines in W. injection W as <-. exists (f :: fs). split; [constructor; auto|].
  cbn [hist_lines flat_map]. rewrite unlines_app, <- app_assoc. cbn [app]. econstructor; [apply Rf|exact Ff].
Qed.
Lemma fresh_session file l : proper_history l -> exists r0 r, xyz_create file false = Done r0 /\ rc_last r0 = 0 /\ record_all show l r0 = Done r /\ rc_last r = last_cycle l /\
  (exists t fs, file_of r = Some t /\ texts show l t /\ frames t fs /\ history_frames show l fs).
Proof.
  intros H. eexists. eexists. split; [reflexivity|]. split; [reflexivity|]. split; [apply record_list; split; [cbn; lia|reflexivity]|]. split; [reflexivity|].
  destruct (hist_frames l [] [] H F_end) as (fs & Hf & Ff). rewrite !app_nil_r in Ff. exists (unlines (hist_lines l)), fs. split.
  - unfold file_of. cbn [rc_out]. rewrite put_end by reflexivity. reflexivity.
  - split; [apply texts_lines; reflexivity|]. split; assumption.
Qed.

(** *** Reopening *)
Lemma unlines_nonempty e l : unlines (hist_lines (l ++ [e])) <> [].
Proof. unfold hist_lines. rewrite flat_map_app, unlines_app. cbn [flat_map]. unfold frame_lines. cbn [app unlines flat_map]. intros E. apply app_eq_nil in E. destruct E as [_ E]. destruct (count (fst e)); discriminate E. Qed.
Lemma reopened_history s l e : io_text s = unlines (hist_lines (l ++ [e])) -> 0 <= snd e < 2 ^ 64 ->
  xyz_recorder (Some s) true = Done (Recorder (Some (rewound s (List.length (unlines (hist_lines l) ++ count (fst e))))) (snd e)).
Proof.
  intros E H. rewrite (append_any s (hist_lines (l ++ [e]) ++ [[]])).
  - rewrite hist_find by (auto; repeat constructor). reflexivity.
  - rewrite E. apply unlines_nonempty.
  - rewrite E, <- (app_nil_r (unlines _)). apply unlines_pieces. apply Forall_app. split; [apply hist_newlines|repeat constructor].
Qed.
(** A stream whose positions are separate: the new snapshots follow the old ones. *)
Lemma separate_session l l2 t g p : proper_history (l ++ l2) -> texts show l t -> exists r0 r, xyz_recorder (Some (Io t g p false)) true = Done r0 /\ rc_last r0 = last_cycle l /\
  record_all show l2 r0 = Done r /\ rc_last r = last_cycle (l ++ l2) /\
  exists t' fs, file_of r = Some t' /\ texts show (l ++ l2) t' /\ frames t' fs /\ history_frames show (l ++ l2) fs.
Proof.
  intros H T. apply texts_lines in T. destruct (hist_frames (l ++ l2) [] [] H F_end) as (fs & Hf & Ff). rewrite !app_nil_r in Ff.
  assert (Lc : last_cycle (l ++ l2) = last (List.map snd l2) (last_cycle l)).
  { unfold last_cycle. rewrite map_app. generalize (List.map snd l) as a, (List.map snd l2) as b. clear. intros a b. revert a. induction b as [|x b IH]; intros a; [rewrite app_nil_r; reflexivity|].
    change (x :: b) with ([x] ++ b). rewrite app_assoc, IH. rewrite last_app. destruct b; [reflexivity|]. cbn [app]. clear IH. revert z. induction b as [|y b IH]; intros z; [reflexivity|]. change (last (z :: y :: b) x) with (last (y :: b) x). change (last (x :: z :: y :: b) (last a 0)) with (last (x :: y :: b) (last a 0)). apply IH. }
  apply Forall_app in H. destruct H as [H H2]. destruct l as [|e l] using rev_ind.
  - cbn in T. subst t. eexists. eexists. split; [reflexivity|]. split; [reflexivity|]. split; [apply record_list; split; [cbn; lia|discriminate]|]. split; [reflexivity|].
    exists (unlines (hist_lines l2)), fs. split; [|split; [apply texts_lines; reflexivity|split; assumption]]. unfold file_of. cbn [rc_out]. rewrite put_end by reflexivity. reflexivity.
  - clear IHl. apply Forall_app in H. destruct H as [_ He]. destruct (Forall_inv He) as [_ Hc]. eexists. eexists. split; [apply (reopened_history _ l e); [exact T|exact Hc]|].
    split; [unfold last_cycle; rewrite map_app; cbn [List.map]; rewrite last_app; reflexivity|]. split; [apply record_list; split; [cbn; lia|discriminate]|].
    split; [rewrite Lc; cbn [rc_last]; f_equal; unfold last_cycle; rewrite map_app; cbn [List.map]; rewrite last_app; reflexivity|].
    exists (unlines (hist_lines ((l ++ [e]) ++ l2))), fs. split; [|split; [apply texts_lines; reflexivity|split; assumption]]. unfold file_of. cbn [rc_out]. rewrite put_end by reflexivity.
    cbn [rewound seekg seekg_end seekp_end seekp io_text]. rewrite T. f_equal. unfold hist_lines. rewrite <- unlines_app, <- flat_map_app. reflexivity.
Qed.
(** Files: the position for writing is where the last header has been found. *)
Lemma joint_session l p c l2 t t2 tl : 0 <= c < 2 ^ 64 -> texts show (l ++ [(p, c)]) t -> texts show l2 t2 -> texts show l tl ->
  exists r0 r, xyz_create (Some t) true = Done r0 /\ rc_last r0 = c /\ file_of r0 = Some t /\ record_all show l2 r0 = Done r /\ rc_last r = last (List.map snd l2) c /\
  let kept := tl ++ decimal (Z.of_nat (List.length (pk_shapes p))) in
  file_of r = Some (kept ++ t2 ++ skipn (List.length (kept ++ t2)) t) /\ exists lost, t = kept ++ newline :: lost.
Proof.
  intros Hc T T2 Tl. apply texts_lines in T. apply texts_lines in T2. apply texts_lines in Tl. subst t2 tl.
  assert (Et : exists lost, t = (unlines (hist_lines l) ++ count p) ++ newline :: lost).
  { rewrite T. unfold hist_lines. rewrite flat_map_app, unlines_app. cbn [flat_map]. unfold frame_lines at 2. cbn [app unlines flat_map fst]. eexists. rewrite <- !app_assoc. cbn [app]. reflexivity. }
  destruct Et as [lost Et]. eexists. eexists. split; [apply (reopened_history _ l (p, c)); [exact T|exact Hc]|]. split; [reflexivity|]. split; [reflexivity|].
  set (P := List.length (unlines (hist_lines l) ++ count (fst (p, c)))).
  assert (LP : (P <= List.length t)%nat) by (rewrite Et; unfold P; cbn [fst]; rewrite (app_length (_ ++ _)); lia).
  split; [apply record_list; split; [cbn; exact LP|intros _; reflexivity]|]. split; [reflexivity|]. cbv zeta. split.
  - unfold file_of, put. cbn [rc_out rewound seekg seekg_end seekp_end seekp io_text io_put io_joint io_get]. f_equal. fold (count p). f_equal; [|f_equal].
    + rewrite Et. unfold P. cbn [fst]. rewrite firstn_app, firstn_all, Nat.sub_diag. cbn [firstn]. apply app_nil_r.
    + unfold P. cbn [fst]. rewrite (app_length (_ ++ _)). reflexivity.
  - exists lost. exact Et.
Qed.
Lemma frames_head w f rest text fs : (forall r, read_frame (w ++ r) = Some (f, r)) -> frames (w ++ rest) fs -> text = w ++ rest -> exists fs', fs = f :: fs' /\ frames rest fs'.
Proof.
  intros R F _. inversion F as [E|l f' rest' fs' R' F' E1 E2]; subst.
  - assert (N : w ++ rest = []) by (symmetry; assumption). pose proof (R rest) as R0. rewrite N in R0. discriminate R0.
  - rewrite R in R'. injection R' as <- <-. exists fs'. auto.
Qed.
Lemma atoms_count : forall n l a r, read_atoms n l = Some (a, r) -> List.length a = n.
Proof.
  induction n as [|n IH]; intros l a r H; cbn [read_atoms] in H; [injection H as <- <-; reflexivity|].
  destruct (getline newline l) as [x|]; cbn [obind] in H; [|discriminate]. destruct (read_atoms n (snd x)) as [[b r']|] eqn:E; cbn [obind fst snd] in H; [|discriminate]. injection H as <- <-. cbn [List.length]. f_equal. eapply IH. exact E.
Qed.
Lemma broken_count p p2 rest f r : pk_shapes p <> [] -> read_frame (count p ++ count p2 ++ newline :: rest) = Some (f, r) -> List.length (fr_atoms f) <> List.length (pk_shapes p).
Proof.
  intros N H. unfold read_frame in H. rewrite app_assoc in H. rewrite getline_app in H by (apply Forall_app; split; apply count_newline). cbn [obind fst snd] in H.
  assert (D : digits (count p ++ count p2)) by (apply Forall_app; split; apply decimal_digits). rewrite <- (app_nil_r (count p ++ count p2)) in H.
  rewrite extract_digits in H; [|exact D|unfold count; destruct (decimal _) eqn:Ed; [destruct (decimal_nonempty _ Ed)|discriminate]|exact Logic.I].
  destruct (2 ^ 64 <=? val (count p ++ count p2)); cbn [obind fst] in H; [discriminate|].
  destruct (getline newline rest) as [b|]; cbn [obind] in H; [|discriminate]. destruct (pairs (Key []) (fst b)) as [ps|]; cbn [obind] in H; [|discriminate].
  destruct (read_atoms _ (snd b)) as [[a r']|] eqn:E; cbn [obind fst snd] in H; [|discriminate]. injection H as <- <-. cbn [fr_atoms]. apply atoms_count in E. rewrite E. rewrite val_app.
  pose proof (val_bounds (count p2) (decimal_digits _)) as [B _]. unfold count at 1. rewrite decimal_val by lia.
  assert (L2 : (1 <= List.length (count p2))%nat) by (unfold count; destruct (decimal _) eqn:Ed; [destruct (decimal_nonempty _ Ed)|cbn; lia]).
  assert (Pw : 10 <= 10 ^ Z.of_nat (List.length (count p2))) by (change 10 with (10 ^ 1) at 1; apply Z.pow_le_mono_r; lia).
  assert (0 < Z.of_nat (List.length (pk_shapes p))) by (destruct (pk_shapes p); [contradiction N; reflexivity|cbn [List.length]; lia]). nia.
Qed.
Lemma joint_broken l p c p2 c2 l2 rest fs : proper_history (l ++ [(p, c)]) -> pk_shapes p <> [] ->
  history_frames show ((l ++ [(p, c)]) ++ (p2, c2) :: l2) fs -> ~ frames (unlines (hist_lines l) ++ count p ++ unlines (hist_lines ((p2, c2) :: l2)) ++ rest) fs.
Proof.
  intros H N. revert fs. induction l as [|[q d] l IH]; intros fs Hf F.
  - inversion Hf as [|e f m fs' [_ Oa] Hf' E1 E2]; subst. cbn [fst] in Oa.
    cbn [hist_lines flat_map unlines frame_lines fst app] in F. rewrite <- app_assoc in F. cbn [app] in F. rewrite <- !app_assoc in F. cbn [app] in F. inversion F as [|l0 f0 rest0 fs0 R0 F0 E1 E2]; subst.
    apply broken_count in R0; [|exact N]. apply R0. clear -Oa. induction Oa; cbn [List.length]; auto.
  - destruct (Forall_inv H) as [Hq Hd]. cbn [fst snd] in *. destruct (frame_read show numerals q (cycles_pair d) Hq (cycles_plain d)) as (w & W & f & Of & Rf). rewrite write_lines in W. injection W as <-.
    cbn [hist_lines flat_map] in F. rewrite unlines_app, <- app_assoc in F. destruct (frames_head _ f _ _ fs Rf F eq_refl) as (fs' & -> & F'). inversion Hf; subst. eapply IH; [exact (Forall_inv_tail H)|eassumption|exact F'].
Qed.
(** *** Interrupted snapshots *)
Lemma cut_session l p c a b t w h : proper_history (l ++ [(p, c)]) -> texts show l t -> xyz_write show p (cycles_pair c) = Some w -> w = a ++ b ->
  h = before_cycles p ++ tx "cycles=" ->
  (w = count p ++ newline :: h ++ decimal c ++ newline :: unlines (List.map (atom_line show) (pk_shapes p)) /\ (exists m, h = tx "Lattice" ++ m ++ tx "cycles=") /\ List.Forall (fun z => z <> newline) h) /\
  let n := List.length (decimal (Z.of_nat (List.length (pk_shapes p)))) in
  let opened := xyz_create (Some (t ++ a)) true in
  let gives := fun k => exists r, opened = Done r /\ rc_last r = k /\ file_of r = Some (t ++ a) in
  ((List.length a < n + 8)%nat -> l <> [] \/ a = [] -> gives (last_cycle l)) /\
  ((List.length a < n + 8)%nat -> l = [] -> a <> [] -> opened = Invalid) /\
  ((n + 8 <= List.length a <= n + 1 + List.length h)%nat -> opened = Invalid) /\
  (forall k, (n + 1 + List.length h < List.length a)%nat -> (k = (n + 1 + List.length h + List.length (decimal c) - List.length a))%nat -> gives (c / 10 ^ Z.of_nat k)).
Proof.
  intros H T W E Hh. rewrite write_lines in W. assert (Eu : w = unlines (frame_lines (p, c))) by congruence. clear W. subst w. apply texts_lines in T. subst t.
  apply Forall_app in H. destruct H as [H He]. destruct (Forall_inv He) as [_ Hc]. cbn [fst snd] in Hc. clear He.
  assert (Ew : unlines (frame_lines (p, c)) = count p ++ newline :: (before_cycles p ++ tx "cycles=") ++ decimal c ++ newline :: unlines (List.map (atom_line show) (pk_shapes p))).
  { unfold frame_lines, cycle_line. cbn [unlines flat_map fst snd]. repeat (rewrite <- app_assoc; cbn [app]). reflexivity. }
  rewrite <- Eu in Ew. rewrite <- Hh in Ew. destruct (head_split (pk_box p)) as [hr Eh].
  assert (Hnl : List.Forall (fun z => z <> newline) h) by (rewrite Hh; apply Forall_app; split; [apply before_newline|repeat constructor; discriminate]).
  split; [split; [exact Ew|split; [exists (hr ++ [space]); rewrite Hh; unfold before_cycles; rewrite Eh, <- !app_assoc; reflexivity|exact Hnl]]|].
  cbv zeta. fold (count p).
  (* what is given by lines without a header *)
  assert (Gold : forall ls x, List.Forall (fun y => header y = false) (ls ++ [x]) -> List.Forall (List.Forall (fun z => z <> newline)) (ls ++ [x]) -> a = unlines ls ++ x ->
    (l <> [] \/ a = [] -> exists r, xyz_create (Some (unlines (hist_lines l) ++ a)) true = Done r /\ rc_last r = last_cycle l /\ file_of r = Some (unlines (hist_lines l) ++ a)) /\
    (l = [] -> a <> [] -> xyz_create (Some (unlines (hist_lines l) ++ a)) true = Invalid)).
  { intros ls x Fh Fn Ea.
    assert (Pp : pieces_of newline (unlines (hist_lines l) ++ a) (hist_lines l ++ (ls ++ [x]))).
    { rewrite Ea, app_assoc, <- unlines_app. rewrite app_assoc. apply unlines_pieces. rewrite <- app_assoc. apply Forall_app. split; [apply hist_newlines|exact Fn]. }
    split.
    - intros La. destruct l as [|e l] using rev_ind.
      + destruct La as [La| ->]; [contradiction La; reflexivity|]. eexists. split; [reflexivity|]. split; reflexivity.
      + clear IHl. apply Forall_app in H. destruct H as [_ He]. destruct (Forall_inv He) as [_ Hce]. eexists. split.
        * unfold xyz_create. rewrite (append_any _ (hist_lines (l ++ [e]) ++ (ls ++ [x]))); cbn [io_text]; [|intros E0; apply app_eq_nil in E0; destruct E0 as [E0 _]; exact (unlines_nonempty e l E0)|exact Pp].
          rewrite hist_find by (auto; exact Hce). reflexivity.
        * split; [unfold last_cycle; rewrite map_app; cbn [List.map]; rewrite last_app; reflexivity|reflexivity].
    - intros -> Na. unfold xyz_create. rewrite (append_any _ (hist_lines [] ++ (ls ++ [x]))); cbn [io_text]; [|exact Na|exact Pp]. cbn [hist_lines flat_map app]. rewrite back_none by exact Fh. reflexivity. }
  assert (Gnew : forall x, a = count p ++ newline :: x -> header x = true -> List.Forall (fun z => z <> newline) x ->
    xyz_create (Some (unlines (hist_lines l) ++ a)) true = match number x with Some n => Done (Recorder (Some (rewound (Io (unlines (hist_lines l) ++ a) (List.length (unlines (hist_lines l) ++ a)) (List.length (unlines (hist_lines l) ++ a)) true) (List.length (unlines (hist_lines l) ++ count p)))) n) | None => Invalid end).
  { intros x Ea Hx Nx. unfold xyz_create. rewrite (append_any _ ((hist_lines l ++ [count p]) ++ [x])); cbn [io_text].
    - rewrite back_hit by (auto; exact Hx). rewrite joined_unlines. destruct (number x); reflexivity.
    - rewrite Ea. intros E0. apply app_eq_nil in E0. destruct E0 as [_ E0]. destruct (count p); discriminate E0.
    - replace (unlines (hist_lines l) ++ a) with (unlines (hist_lines l ++ [count p]) ++ x) by (rewrite Ea, unlines_app; cbn [unlines flat_map]; repeat (rewrite <- app_assoc; cbn [app]); reflexivity).
      apply unlines_pieces. apply Forall_app. split; [apply Forall_app; split; [apply hist_newlines|constructor; [apply count_newline|constructor]]|constructor; [exact Nx|constructor]]. }
  assert (Lh : (7 <= List.length h)%nat) by (rewrite Hh, app_length; change (List.length (tx "cycles=")) with 7%nat; lia).
  assert (Cut : forall u v : list Z, a ++ b = u ++ v -> (List.length u <= List.length a)%nat -> exists x, a = u ++ x /\ x ++ b = v).
  { intros u v Euv Luv. exists (skipn (List.length u) a). assert (Fu : firstn (List.length u) a = u).
    { apply (f_equal (firstn (List.length u))) in Euv. rewrite !firstn_app, firstn_all, Nat.sub_diag in Euv. replace (List.length u - List.length a)%nat with 0%nat in Euv by lia. cbn [firstn] in Euv. rewrite !app_nil_r in Euv. exact Euv. }
    assert (Ea : a = u ++ skipn (List.length u) a) by (rewrite <- Fu at 1; symmetry; apply firstn_skipn). split; [exact Ea|]. rewrite Ea, <- app_assoc in Euv. apply app_inv_head in Euv. exact Euv. }
  assert (Small : (List.length a < List.length (count p) + 8)%nat -> exists ls x, List.Forall (fun y => header y = false) (ls ++ [x]) /\ List.Forall (List.Forall (fun z => z <> newline)) (ls ++ [x]) /\ a = unlines ls ++ x).
  { intros La. destruct (Nat.leb_spec (List.length a) (List.length (count p))) as [L|L].
    - assert (exists y, count p = a ++ y) as [y Ey].
      { exists (skipn (List.length a) (count p)). apply (f_equal (firstn (List.length a))) in Ew. rewrite !firstn_app, firstn_all, Nat.sub_diag in Ew. replace (List.length a - List.length (count p))%nat with 0%nat in Ew by lia. cbn [firstn] in Ew. rewrite !app_nil_r in Ew.
        rewrite Ew at 1. symmetry. apply firstn_skipn. }
      exists [], a. cbn [app unlines flat_map]. repeat split; [constructor; [|constructor]|constructor; [|constructor]].
      + eapply (prefix_header (count p) []); [apply digit_first|exact Ey].
      + pose proof (count_newline p) as Fc. rewrite Ey in Fc. apply Forall_app in Fc. apply Fc.
    - destruct (Cut (count p ++ [newline]) (h ++ decimal c ++ newline :: unlines (List.map (atom_line show) (pk_shapes p)))) as (x & Ex & Eb).
      { rewrite <- app_assoc. exact Ew. }
      { rewrite app_length. cbn [List.length]. lia. }
      assert (Lx : (List.length x < 7)%nat) by (apply (f_equal (@List.length Z)) in Ex; rewrite !app_length in Ex; cbn [List.length] in Ex; lia).
      exists [count p], x. cbn [app unlines flat_map]. rewrite app_nil_r. repeat split; [..|exact Ex].
      + constructor; [apply count_header|]. constructor; [apply short_header; exact Lx|constructor].
      + constructor; [apply count_newline|]. constructor; [|constructor].
        assert (Hn : List.Forall (fun z => z <> newline) h) by (rewrite Hh; apply Forall_app; split; [apply before_newline|repeat constructor; discriminate]).
        apply (f_equal (firstn (List.length x))) in Eb. rewrite !firstn_app, firstn_all, Nat.sub_diag in Eb. replace (List.length x - List.length h)%nat with 0%nat in Eb by lia. cbn [firstn] in Eb. rewrite !app_nil_r in Eb.
        rewrite Eb. apply Forall_forall. intros z Hz. rewrite Forall_forall in Hn. apply Hn. rewrite <- (firstn_skipn (List.length x) h). apply in_or_app. left. exact Hz. }
  split; [|split; [|split]].
  - intros La. destruct (Small La) as (ls & x & Fh & Fn & Ea). apply (Gold ls x Fh Fn Ea).
  - intros La. destruct (Small La) as (ls & x & Fh & Fn & Ea). apply (Gold ls x Fh Fn Ea).
  - intros La. destruct (Cut (count p ++ [newline]) (h ++ decimal c ++ newline :: unlines (List.map (atom_line show) (pk_shapes p)))) as (x & Ex & Eb).
    { rewrite <- app_assoc. exact Ew. }
    { rewrite app_length. cbn [List.length]. lia. }
    assert (Lx : (7 <= List.length x <= List.length h)%nat) by (apply (f_equal (@List.length Z)) in Ex; rewrite !app_length in Ex; cbn [List.length] in Ex; lia).
    rewrite <- app_assoc in Ex. cbn [app] in Ex.
    assert (Eh2 : h = x ++ skipn (List.length x) h).
    { rewrite <- (firstn_skipn (List.length x) h) at 1. f_equal. apply (f_equal (firstn (List.length x))) in Eb. rewrite !firstn_app, firstn_all, Nat.sub_diag in Eb. replace (List.length x - List.length h)%nat with 0%nat in Eb by lia. cbn [firstn] in Eb. rewrite !app_nil_r in Eb. symmetry. exact Eb. }
    assert (Hn : List.Forall (fun z => z <> newline) h) by (rewrite Hh; apply Forall_app; split; [apply before_newline|repeat constructor; discriminate]).
    rewrite (Gnew x Ex).
    + rewrite (number_short (before_cycles p) x (skipn (List.length x) h)); [reflexivity|apply before_y|rewrite <- Hh; exact Eh2].
    + unfold header. apply startsWith_iff. destruct (Nat.eqb_spec 0 0); [|congruence].
      assert (Fx : firstn 7 x = tx "Lattice").
      { assert (F7 : firstn 7 h = tx "Lattice") by (rewrite Hh; unfold before_cycles; rewrite Eh, <- !app_assoc; reflexivity). rewrite Eh2, firstn_app in F7. replace (7 - List.length x)%nat with 0%nat in F7 by lia. cbn [firstn] in F7. rewrite app_nil_r in F7. exact F7. }
      exists (skipn 7 x). rewrite <- Fx. symmetry. apply firstn_skipn.
    + rewrite Eh2 in Hn. apply Forall_app in Hn. apply Hn.
  - intros k La Ek. destruct (Cut (count p ++ newline :: h) (decimal c ++ newline :: unlines (List.map (atom_line show) (pk_shapes p)))) as (d & Ed & Eb).
    { rewrite <- app_assoc. exact Ew. }
    { rewrite app_length. cbn [List.length]. lia. }
    assert (Ld : (List.length a = List.length (count p) + 1 + List.length h + List.length d)%nat) by (rewrite Ed, !app_length; cbn [List.length]; lia).
    destruct (Nat.leb_spec (List.length d) (List.length (decimal c))) as [L|L].
    + (* within the digits *)
      assert (Edc : decimal c = d ++ skipn (List.length d) (decimal c)).
      { rewrite <- (firstn_skipn (List.length d) (decimal c)) at 1. f_equal. apply (f_equal (firstn (List.length d))) in Eb. rewrite !firstn_app, firstn_all, Nat.sub_diag in Eb. replace (List.length d - List.length (decimal c))%nat with 0%nat in Eb by lia. cbn [firstn] in Eb. rewrite !app_nil_r in Eb. symmetry. exact Eb. }
      set (e := skipn (List.length d) (decimal c)) in *. pose proof (decimal_digits c) as Dd. rewrite Edc in Dd. apply Forall_app in Dd. destruct Dd as [Dd De].
      assert (Vc : c = val d * 10 ^ Z.of_nat (List.length e) + val e) by (rewrite <- val_app, <- Edc, decimal_val by lia; reflexivity).
      pose proof (val_bounds e De) as Be. pose proof (val_bounds d Dd) as Bd. assert (Lk : k = List.length e) by (apply (f_equal (@List.length Z)) in Edc; rewrite app_length in Edc; lia).
      assert (Vd : c / 10 ^ Z.of_nat k = val d) by (symmetry; apply (Z.div_unique c _ (val d) (val e)); [left; rewrite Lk; exact Be|rewrite Lk; lia]). rewrite Vd.
      eexists. split; [|split; [|]].
      * rewrite (Gnew (h ++ d)).
        -- rewrite Hh. rewrite <- app_assoc. rewrite number_line by first [apply before_y | apply digits_y; exact Dd]. rewrite <- (app_nil_r d) at 1. rewrite extract_digits; [|exact Dd|intros ->; cbn in Ld; lia|exact Logic.I].
           assert (2 ^ 64 <=? val d = false) as -> by nia. cbn [obind fst]. reflexivity.
        -- rewrite Ed, <- app_assoc. reflexivity.
        -- rewrite Hh. unfold before_cycles. rewrite Eh, <- !app_assoc. apply lattice_header.
        -- rewrite Hh. apply Forall_app. split; [apply Forall_app; split; [apply before_newline|repeat constructor; discriminate]|apply digits_newline; exact Dd].
      * reflexivity.
      * reflexivity.
    + (* after the digits *)
      assert (Hk : k = 0%nat) by lia. rewrite Hk. change (10 ^ Z.of_nat 0) with 1. rewrite Z.div_1_r.
      destruct (Cut (count p ++ newline :: cycle_line (p, c) ++ [newline]) (unlines (List.map (atom_line show) (pk_shapes p)))) as (x & Ex & Ebx).
      { rewrite Ew, Hh. unfold cycle_line. cbn [fst snd]. repeat (rewrite <- app_assoc; cbn [app]). reflexivity. }
      { rewrite Ld, Hh. unfold cycle_line. cbn [fst snd]. rewrite !app_length. cbn [List.length]. rewrite !app_length. cbn [List.length]. lia. }
      (* the atoms which are left *)
      assert (At : forall ss x y, x ++ y = unlines (List.map (atom_line show) ss) -> exists ls z, x = unlines ls ++ z /\ List.Forall (fun y => header y = false) (ls ++ [z]) /\ List.Forall (List.Forall (fun z => z <> newline)) (ls ++ [z])).
      { clear -numerals. induction ss as [|s ss IH]; intros x y Exy.
        - cbn [List.map unlines flat_map] in Exy. apply app_eq_nil in Exy. destruct Exy as [-> ->]. exists [], []. repeat split; repeat constructor.
        - cbn [List.map unlines flat_map] in Exy. fold (unlines (List.map (atom_line show) ss)) in Exy. rewrite <- app_assoc in Exy. cbn [app] in Exy.
          destruct (Nat.leb_spec (List.length x) (List.length (atom_line show s))) as [L|L].
          + exists [], x. cbn [app unlines flat_map]. assert (Ea : atom_line show s = x ++ skipn (List.length x) (atom_line show s)).
            { rewrite <- (firstn_skipn (List.length x) (atom_line show s)) at 1. f_equal. apply (f_equal (firstn (List.length x))) in Exy. rewrite !firstn_app, firstn_all, Nat.sub_diag in Exy. replace (List.length x - List.length (atom_line show s))%nat with 0%nat in Exy by lia. cbn [firstn] in Exy. rewrite !app_nil_r in Exy. symmetry. exact Exy. }
            split; [reflexivity|]. split; (constructor; [|constructor]).
            * eapply (prefix_header (atom_line show s) []); [|exact Ea]. intros c0 r0. destruct (Z.eq_dec c0 76) as [->|]; [left|auto]. unfold atom_line. cbv zeta. change (tx "A ") with [65; 32]. cbn [app]. congruence.
            * pose proof (atom_newline show numerals s) as Fa. rewrite Ea in Fa. apply Forall_app in Fa. apply Fa.
          + assert (exists x', x = (atom_line show s ++ [newline]) ++ x' /\ x' ++ y = unlines (List.map (atom_line show) ss)) as (x' & Ex' & Ey').
            { exists (skipn (S (List.length (atom_line show s))) x). assert (F1 : firstn (S (List.length (atom_line show s))) x = atom_line show s ++ [newline]).
              { apply (f_equal (firstn (S (List.length (atom_line show s))))) in Exy. rewrite firstn_app in Exy. replace (S (List.length (atom_line show s)) - List.length x)%nat with 0%nat in Exy by lia. change (firstn 0 y) with (@nil Z) in Exy. rewrite app_nil_r in Exy.
                rewrite Exy. rewrite firstn_app, firstn_all2 by lia. replace (S (List.length (atom_line show s)) - List.length (atom_line show s))%nat with 1%nat by lia. reflexivity. }
              assert (Ex0 : x = (atom_line show s ++ [newline]) ++ skipn (S (List.length (atom_line show s))) x) by (rewrite <- F1; symmetry; apply firstn_skipn). split; [exact Ex0|].
              rewrite Ex0 in Exy. rewrite <- !app_assoc in Exy. apply app_inv_head in Exy. cbn [app] in Exy. injection Exy as Exy. exact Exy. }
            destruct (IH x' y Ey') as (ls & z & Ez & Fh & Fn). exists (atom_line show s :: ls), z. split; [rewrite Ex', Ez; cbn [unlines flat_map]; rewrite <- !app_assoc; reflexivity|]. cbn [app].
            split; constructor; auto; [apply atom_newline; exact numerals]. }
      destruct (At _ x b Ebx) as (ls & z & Ez & Fh & Fn). clear At.
      eexists. split; [|split].
      * unfold xyz_create. rewrite (append_any _ ((hist_lines l ++ [count p]) ++ cycle_line (p, c) :: (ls ++ [z]))); cbn [io_text].
        -- rewrite back_hit by first [apply cycle_header | exact Fh]. rewrite cycle_number by exact Hc. cbn [obind]. reflexivity.
        -- rewrite Ex. intros E0. apply app_eq_nil in E0. destruct E0 as [_ E0]. destruct (count p); discriminate E0.
        -- replace (unlines (hist_lines l) ++ a) with (unlines (hist_lines l ++ [count p] ++ [cycle_line (p, c)] ++ ls) ++ z).
           2:{ rewrite Ex, Ez. rewrite !unlines_app. cbn [unlines flat_map]. repeat (rewrite <- app_assoc; cbn [app]). reflexivity. }
           replace ((hist_lines l ++ [count p]) ++ cycle_line (p, c) :: ls ++ [z]) with ((hist_lines l ++ [count p] ++ [cycle_line (p, c)] ++ ls) ++ [z]) by (repeat (rewrite <- app_assoc; cbn [app]); reflexivity).
           apply unlines_pieces. rewrite <- !app_assoc. apply Forall_app. split; [apply hist_newlines|]. cbn [app]. constructor; [apply count_newline|]. constructor; [apply cycle_newline|]. exact Fn.
      * reflexivity.
      * reflexivity.
Qed.
End history.
