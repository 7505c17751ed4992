From Coq Require Import ZArith List Bool Lia ZifyBool ZifyNat.
From Verif Require Import OptModel TrjModel TrjSpec TrjProofs TrjPlayProofs TrjRecProofs.
Import ListNotations.
Open Scope Z_scope.

Lemma written_file n step ss : fits n step (Z.of_nat (length ss)) -> Forall (good_snapshot n) ss ->
  exists cs, recording [] n step false (numbered step 0 ss) = Some cs /\ trajectory n step ss (fl_bytes (perform cs (File [] 0))).
Proof.
  intros F G. eexists. split; [apply recording_fresh; auto|]. apply trajectory_iff; auto. rewrite perform_close by (cbn [app]; rewrite app_length, !hdr_length; lia).
  cbn [fl_bytes app]. rewrite skipn_app, !hdr_length, skipn_all2 by (rewrite hdr_length; lia). reflexivity.
Qed.
Lemma appended_file n step old new content : fits n step (Z.of_nat (length (old ++ new))) -> Forall (good_snapshot n) (old ++ new) -> trajectory n step old content ->
  exists cs, recording content n step true (numbered step (Z.of_nat (length old)) new) = Some cs /\ trajectory n step (old ++ new) (fl_bytes (perform cs (File content 0))).
Proof.
  intros F G T. assert (Fo : fits n step (Z.of_nat (length old))) by (apply (fits_le _ _ _ _ F); rewrite app_length; lia). pose proof G as G'. apply Forall_app in G'. destruct G' as [Go _].
  apply trajectory_iff in T; auto. rewrite T. eexists. split; [apply recording_append; auto|]. apply trajectory_iff; auto. rewrite perform_close by (rewrite !app_length, !hdr_length; lia).
  cbn [fl_bytes]. rewrite <- app_assoc, skipn_app, !hdr_length, skipn_all2 by (rewrite hdr_length; lia). rewrite dat_app. reflexivity.
Qed.
Lemma accepted xs n step : is_word64 n -> is_word64 step -> Z.of_nat (length xs) < 2 ^ 64 -> Z.of_nat (length xs) * step < 2 ^ 64 ->
  (recording [] n step false xs <> None <->
   0 < n /\ 0 < step /\ exists ss, xs = numbered step 0 ss /\ Forall (fun s => Z.of_nat (length (sn_shapes s)) = n) ss).
Proof.
  intros A B L Ls. split.
  - intros H. unfold recording in H. destruct (newRecorder [] n step false) as [r|] eqn:N; [|contradiction H; reflexivity].
    assert (Hn : 0 < n /\ 0 < step). { unfold newRecorder in N. destruct (Z.ltb_spec 0 n), (Z.ltb_spec 0 step); try discriminate. auto. } destruct Hn as [Hn Hs].
    split; [exact Hn|]. split; [exact Hs|]. rewrite new_fresh in N by auto. apply some_inj in N. rewrite <- N in H. cbn [obind fst snd] in H.
    destruct (recordAll xs _) as [r'|] eqn:R; [|contradiction H; reflexivity]. apply record_only in R; auto; try lia. exists (map fst xs). exact R.
  - intros (Hn & Hs & ss & -> & F). assert (Len : forall ss k, length (numbered step k ss) = length ss) by (induction ss0; intros; cbn; auto). rewrite Len in *.
    unfold recording. rewrite new_fresh by auto. cbn [obind fst snd]. rewrite record_all by (auto; lia). cbn. discriminate.
Qed.
Lemma trajectory_unique n step ss l l' : fits n step (Z.of_nat (length ss)) -> Forall (good_snapshot n) ss -> trajectory n step ss l -> trajectory n step ss l' -> l = l'.
Proof. intros F G A B. apply trajectory_iff in A, B; auto. congruence. Qed.

Lemma opened n step ss l : fits n step (Z.of_nat (length ss)) -> Forall (good_snapshot n) ss -> trajectory n step ss l ->
  exists h, openPlayer l = Some (fresh_player h l) /\ hd_particles h = n /\ hd_step h = step /\ hd_snapshots h = Z.of_nat (length ss) /\ holds n ss l.
Proof.
  intros F G T. destruct (fits_k _ _ _ F ltac:(lia)) as (A & B & C & D & E). apply trajectory_iff in T; auto. set (h := Header 1 1 n (Z.of_nat (length ss)) step).
  assert (Rh : readHeader l = Some h) by (rewrite T; unfold hdr; apply read_header; auto).
  assert (Ll : Z.of_nat (length l) = 33 + Z.of_nat (length ss) * size_of n) by (rewrite T, app_length, Nat2Z.inj_add, (dat_length n), hdr_length by auto; reflexivity).
  exists h. split. { unfold openPlayer. rewrite Rh. cbn [obind]. rewrite (streamoff n _ step (Z.of_nat (length ss))) by (auto; cbn; lia). rewrite Ll. change (hd_snapshots h) with (Z.of_nat (length ss)). rewrite Z.eqb_refl. reflexivity. }
  split; [reflexivity|]. split; [reflexivity|]. split; [reflexivity|].
  exists (hdr n (Z.of_nat (length ss)) step), []. rewrite app_nil_r. split; [exact T|apply hdr_length].
Qed.
Lemma player_plays n step ss l : fits n step (Z.of_nat (length ss)) -> Forall (good_snapshot n) ss -> trajectory n step ss l ->
  exists p, openPlayer l = Some p /\ plays n step ss p.
Proof. intros F G T. destruct (opened n step ss l F G T) as (h & E & A & B & C & H). exists (fresh_player h l). split; [exact E|]. apply fresh_plays; auto. Qed.
Lemma truncated_player n step ss l : fits n step (Z.of_nat (length ss)) -> Forall (good_snapshot n) ss -> trajectory n step ss l ->
  exists p, openPlayer l = Some p /\
    (forall k, (k <= length ss)%nat -> exists t, newTruncated p (Z.of_nat k * step) = Some t /\
       forall ns, Forall legal_nav ns -> playT n ns t = leaf ns (Shelf (firstn k ss) step 0 true)) /\
    (forall total, total > Z.of_nat (length ss) * step \/ total mod step <> 0 -> newTruncated p total = None).
Proof.
  intros F G T. destruct (opened n step ss l F G T) as (h & E & A & B & C & H). exists (fresh_player h l). split; [exact E|]. split.
  - intros k K. apply (truncated_plays n step ss l F G H k K h A B C).
  - intros total Ht. apply (truncated_refused h l total n step (Z.of_nat (length ss)) A B C F); auto. lia.
Qed.

(** Reading everything in order. *)
Lemma leaf_in_order step : forall todo done, exists vs, leaf (map (fun _ => Next) todo) (Shelf (done ++ todo) step (length done) true) = Some vs /\ map (fun v => fst (fst (fst v))) vs = map Shown todo.
Proof.
  induction todo as [|s todo IH]; intros done; [exists []; split; reflexivity|]. cbn [map leaf shelf_move]. unfold show. cbn [sf_all sf_open sf_shown sf_step].
  rewrite nth_error_app2, Nat.sub_diag by lia. cbn [nth_error obind fst snd]. destruct (IH (done ++ [s])) as (vs & E & M). rewrite app_length, Nat.add_1_r, <- app_assoc in E. cbn [app] in E.
  rewrite E. cbn [obind]. eexists. split; [reflexivity|]. cbn [map shelf_view fst]. rewrite M. reflexivity.
Qed.
Lemma all_in_order n step ss p : plays n step ss p -> exists vs, play n (map (fun _ => Next) ss) p = Some vs /\ map (fun v => fst (fst (fst v))) vs = map Shown ss.
Proof.
  intros (_ & _ & _ & H). destruct (leaf_in_order step ss []) as (vs & E & M). exists vs. split; [|exact M]. rewrite H; [exact E|]. apply Forall_forall. intros x Hx. apply in_map_iff in Hx. destruct Hx as (y & <- & _). exact I.
Qed.

(** What views say. *)
Lemma show_belongs k s s' x : show k s = (s', Shown x) -> nth_error (sf_all s) k = Some x /\ sf_shown s' = S k /\ sf_all s' = sf_all s /\ sf_step s' = sf_step s.
Proof. unfold show. destruct (nth_error (sf_all s) k) as [y|]; [|discriminate]. destruct (sf_open s); [|discriminate]. intros E. injection E as <- <-. auto. Qed.
Lemma show_keeps k s : sf_all (fst (show k s)) = sf_all s /\ sf_step (fst (show k s)) = sf_step s /\ (sf_shown s <= length (sf_all s) -> sf_shown (fst (show k s)) <= length (sf_all s))%nat.
Proof.
  unfold show. destruct (nth_error (sf_all s) k) as [y|] eqn:E; [|cbn; auto]. destruct (sf_open s); cbn; auto. split; [reflexivity|]. split; [reflexivity|]. intros _.
  assert (k < length (sf_all s))%nat by (apply nth_error_Some; congruence). lia.
Qed.
Lemma move_keeps n s s' r : shelf_move n s = Some (s', r) -> sf_all s' = sf_all s /\ sf_step s' = sf_step s /\ ((sf_shown s <= length (sf_all s) -> sf_shown s' <= length (sf_all s))%nat) /\
  forall x, r = Shown x -> exists i, nth_error (sf_all s) i = Some x /\ sf_shown s' = S i.
Proof.
  assert (Hs : forall k, show k s = (s', r) -> sf_all s' = sf_all s /\ sf_step s' = sf_step s /\ ((sf_shown s <= length (sf_all s) -> sf_shown s' <= length (sf_all s))%nat) /\
    forall x, r = Shown x -> exists i, nth_error (sf_all s) i = Some x /\ sf_shown s' = S i).
  { intros k E. pose proof (show_keeps k s) as K. rewrite E in K. cbn [fst] in K. destruct K as (A & B & C). split; [exact A|]. split; [exact B|]. split; [exact C|].
    intros x ->. destruct (show_belongs _ _ _ _ E) as (D1 & D2 & _). exists k. auto. }
  assert (Same : (s', r) = (s, Refused) -> sf_all s' = sf_all s /\ sf_step s' = sf_step s /\ ((sf_shown s <= length (sf_all s) -> sf_shown s' <= length (sf_all s))%nat) /\
    forall x, r = Shown x -> exists i, nth_error (sf_all s) i = Some x /\ sf_shown s' = S i).
  { intros E. injection E as -> ->. split; [reflexivity|]. split; [reflexivity|]. split; [auto|]. discriminate. }
  destruct n; cbn [shelf_move].
  - intros E. apply some_inj in E. apply (Hs _ E).
  - destruct (sf_all s) eqn:Ea; intros E; apply some_inj in E; [apply Same; congruence|]. rewrite <- Ea in *. apply (Hs _ E).
  - destruct (_ && _); intros E; apply some_inj in E; [apply (Hs _ E)|apply Same; congruence].
  - destruct (sf_open s); [|discriminate]. intros E. injection E as <- <-. cbn. split; [reflexivity|]. split; [reflexivity|]. split; [lia|]. discriminate.
  - intros E. injection E as <- <-. cbn. split; [reflexivity|]. split; [reflexivity|]. split; [auto|]. discriminate.
Qed.
Lemma leaf_belongs : forall ns s vs, (sf_shown s <= length (sf_all s))%nat -> leaf ns s = Some vs -> forall r b c t, In (r, b, c, t) vs ->
  t = sf_count s * sf_step s /\ (exists i, (i <= length (sf_all s))%nat /\ c = Z.of_nat i * sf_step s /\ (b = true -> (i < length (sf_all s))%nat) /\
  forall x, r = Shown x -> exists i', i = S i' /\ nth_error (sf_all s) i' = Some x).
Proof.
  induction ns as [|n ns IH]; intros s vs Hs E r b c t Hin; [injection E as <-; contradiction|]. cbn [leaf] in E. destruct (shelf_move n s) as [[s' r']|] eqn:M; [|discriminate].
  cbn [obind fst snd] in E. destruct (leaf ns s') as [vs'|] eqn:L; [|discriminate]. apply some_inj in E. destruct (move_keeps _ _ _ _ M) as (A & B & C & D). specialize (C Hs).
  rewrite <- E in Hin. destruct Hin as [Hin|Hin].
  - injection Hin as <- <- <- <-. unfold sf_count. rewrite A, B. split; [reflexivity|]. exists (sf_shown s'). split; [exact C|]. split; [reflexivity|]. split; [intros Hb; apply andb_true_iff in Hb; lia|].
    intros x ->. destruct (D x eq_refl) as (i & D1 & D2). exists i. auto.
  - rewrite <- A in C. destruct (IH s' vs' C L _ _ _ _ Hin) as (I1 & i & I2). unfold sf_count in *. rewrite A, B in *. split; [exact I1|]. exists i. exact I2.
Qed.
Lemma view_belongs n step ss p ns vs : plays n step ss p -> Forall legal_nav ns -> play n ns p = Some vs -> forall r b c t, In (r, b, c, t) vs ->
  t = Z.of_nat (length ss) * step /\ (exists i, (i <= length ss)%nat /\ c = Z.of_nat i * step /\ (b = true -> (i < length ss)%nat) /\
  forall x, r = Shown x -> exists i', i = S i' /\ nth_error ss i' = Some x).
Proof. intros (_ & _ & _ & H) L E. rewrite H in E by auto. apply (leaf_belongs ns (Shelf ss step 0 true)); auto. cbn. lia. Qed.
Lemma closed_defined : forall ns s, forallb (fun n => match n with Reset => false | _ => true end) ns = true -> leaf ns s <> None.
Proof.
  induction ns as [|n ns IH]; intros s H; [discriminate|]. cbn [forallb] in H. apply andb_true_iff in H. destruct H as [Hn H]. cbn [leaf].
  assert (exists r, shelf_move n s = Some r) as [[s' r] ->].
  { destruct n; cbn [shelf_move]; try discriminate; [eauto|destruct (sf_all s); eauto|destruct (_ && _); eauto|eauto]. }
  cbn [obind fst snd]. specialize (IH s' H). destruct (leaf ns s'); [discriminate|contradiction IH; reflexivity].
Qed.
Lemma show_open k s : sf_open (fst (show k s)) = sf_open s.
Proof. unfold show. destruct (nth_error _ _); [|reflexivity]. destruct (sf_open s) eqn:E; [reflexivity|exact E]. Qed.
Lemma orderly_defined : forall ns s, sf_open s = true -> orderly ns = true -> leaf ns s <> None.
Proof.
  induction ns as [|n ns IH]; intros s O H; [discriminate|]. cbn [leaf].
  assert (D : forall s' r, sf_open s' = true -> orderly ns = true -> shelf_move n s = Some (s', r) -> (r <- shelf_move n s;; (vs <- leaf ns (fst r);; Some (shelf_view (snd r) (fst r) :: vs))) <> None).
  { intros s' r O' H' ->. cbn [obind fst snd]. specialize (IH s' O' H'). destruct (leaf ns s'); [discriminate|contradiction IH; reflexivity]. }
  assert (P : forall k, (let (a, b) := show k s in (a, b)) = show k s) by (intros; destruct (show k s); reflexivity).
  destruct n; cbn [orderly] in H.
  - apply (D (fst (show (sf_shown s) s)) (snd (show (sf_shown s) s))); auto; [rewrite show_open; auto|]. cbn [shelf_move]. destruct (show _ _); reflexivity.
  - cbn [shelf_move] in *. destruct (sf_all s) eqn:E; [apply (D s Refused); auto|]. rewrite <- E in *. apply (D (fst (show (length (sf_all s) - 1) s)) (snd (show (length (sf_all s) - 1) s))); auto; [rewrite show_open; auto|].
    destruct (show _ _); reflexivity.
  - cbn [shelf_move] in *. destruct (_ && _); [|apply (D s Refused); auto]. apply (D (fst (show (Z.to_nat (cycle / sf_step s - 1)) s)) (snd (show (Z.to_nat (cycle / sf_step s - 1)) s))); auto; [rewrite show_open; auto|].
    destruct (show _ _); reflexivity.
  - cbn [shelf_move] in *. rewrite O in *. eapply D; [|exact H|reflexivity]. reflexivity.
  - cbn [shelf_move obind fst snd]. pose proof (closed_defined ns (Shelf (sf_all s) (sf_step s) (sf_shown s) false) H) as K. destruct (leaf ns _); [discriminate|contradiction K; reflexivity].
Qed.
Lemma play_defined n step ss p ns : plays n step ss p -> Forall legal_nav ns -> orderly ns = true -> play n ns p <> None.
Proof. intros (_ & _ & _ & H) L O. rewrite H by auto. apply orderly_defined; auto. Qed.
Lemma wrong_size n n' p : hd_particles (py_header p) = n -> n' <> n -> nextSnapshot n' p = Some (p, Refused).
Proof. intros <- H. unfold nextSnapshot. destruct (Z.eqb_spec n' (hd_particles (py_header p))); [contradiction|]. rewrite andb_false_r. reflexivity. Qed.

(** Appending. *)
Lemma append_same n step old new cs1 cs2 cs : fits n step (Z.of_nat (length (old ++ new))) -> Forall (good_snapshot n) (old ++ new) ->
  recording [] n step false (numbered step 0 old) = Some cs1 ->
  let l := fl_bytes (perform cs1 (File [] 0)) in
  recording l n step true (numbered step (Z.of_nat (length old)) new) = Some cs2 ->
  recording [] n step false (numbered step 0 (old ++ new)) = Some cs ->
  fl_bytes (perform cs2 (File l 0)) = fl_bytes (perform cs (File [] 0)).
Proof.
  intros F G E1 l E2 E. assert (Fo : fits n step (Z.of_nat (length old))) by (apply (fits_le _ _ _ _ F); rewrite app_length; lia). pose proof G as G'. apply Forall_app in G'. destruct G' as [Go _].
  destruct (written_file n step old Fo Go) as (c1 & W1 & T1). rewrite E1 in W1. apply some_inj in W1. subst c1. fold l in T1.
  destruct (appended_file n step old new l F G T1) as (c2 & W2 & T2). rewrite E2 in W2. apply some_inj in W2. subst c2.
  destruct (written_file n step (old ++ new) F G) as (c & W & T). rewrite E in W. apply some_inj in W. subst c. apply (trajectory_unique n step (old ++ new)); auto.
Qed.
Lemma append_refused n step ss l n' step' : fits n step (Z.of_nat (length ss)) -> Forall (good_snapshot n) ss -> trajectory n step ss l ->
  n' <> n \/ step' <> step -> newRecorder l n' step' true = None.
Proof.
  intros F G T H. destruct (fits_k _ _ _ F ltac:(lia)) as (A & B & C & D & E). apply trajectory_iff in T; auto. unfold newRecorder. destruct (negb _); [reflexivity|].
  rewrite T at 1. unfold hdr at 1. rewrite read_header by auto. cbn [obind hd_particles hd_step].
  assert ((n' =? n) && (step' =? step) = false) as -> by lia. reflexivity.
Qed.
Lemma no_truncation l n step : l <> [] -> newRecorder l n step false = None.
Proof. intros H. unfold newRecorder. destruct (negb (_ && _)); [reflexivity|]. destruct l; [contradiction H; reflexivity|reflexivity]. Qed.

(** Crashes. *)
Lemma session_state n step append old new content cs k : fits n step (Z.of_nat (length (old ++ new))) -> Forall (good_snapshot n) (old ++ new) -> session n step append old content ->
  recording content n step append (numbered step (Z.of_nat (length old)) new) = Some cs ->
  ((length (left_after k cs content) < 33)%nat /\ old = []) \/
  exists k' q, 0 <= k' <= Z.of_nat (length (old ++ new)) /\ (length (dat old) <= q <= length (dat (old ++ new)))%nat /\ left_after k cs content = hdr n k' step ++ firstn q (dat (old ++ new)).
Proof.
  intros F G S R. destruct append; cbn [session] in S.
  - assert (Fo : fits n step (Z.of_nat (length old))) by (apply (fits_le _ _ _ _ F); rewrite app_length; lia). pose proof G as G'. apply Forall_app in G'. destruct G' as [Go _].
    apply trajectory_iff in S; auto. rewrite S in *. right. apply (crash_append n step old new cs k F G R).
  - destruct S as [-> ->]. cbn [app length] in *. destruct (crash_fresh n step new cs k F G R) as [H|(k' & q & A & B & C)]; [left; auto|]. right. exists k', q. split; [exact A|]. split; [cbn; lia|exact C].
Qed.
Lemma crash_short l n : (length l < 33)%nat -> openPlayer l = None /\ openFixing l (newAutoFix n) = (reportError (newAutoFix n), None).
Proof. intros H. unfold openPlayer, openFixing. rewrite header_short by auto. auto. Qed.
Lemma crash_open n step append old new content cs k : fits n step (Z.of_nat (length (old ++ new))) -> Forall (good_snapshot n) (old ++ new) -> session n step append old content ->
  recording content n step append (numbered step (Z.of_nat (length old)) new) = Some cs -> (33 <= length (left_after k cs content))%nat ->
  exists j rest f p, partly n (old ++ new) j rest (left_after k cs content) /\ (length old <= j)%nat /\
    openFixing (left_after k cs content) (newAutoFix n) = (f, Some p) /\ plays n step (firstn j (old ++ new)) p /\
    af_successful f = true /\ af_inferred f = Z.of_nat j /\ af_remainder f = Z.of_nat (length rest) /\
    openPlayer (left_after k cs content) = (if af_needed f then None else Some p) /\ (af_needed f = false -> rest = []) /\
    (forall e, af_needed f = true -> e <> n -> openFixing (left_after k cs content) (newAutoFix e) = (reportError (newAutoFix e), None)).
Proof.
  intros F G S R L. destruct (session_state n step append old new content cs k F G S R) as [[H _]|(k' & q & Hk & Hq & E)]; [lia|]. rewrite E in *.
  destruct (open_prefix n step (old ++ new) k' q F G Hk ltac:(lia)) as (j & d & rest & f & p & A1 & A2 & A3 & A4 & A5 & A5' & A6 & A7 & A8 & A9 & A10 & A11 & A12 & A13 & A14 & _ & A15).
  exists j, rest, f, p. assert (Hn : 0 < n) by apply F. pose proof (size_pos n Hn) as Hsp.
  split. { split; [exact A1|]. split; [exact A4|]. split. { exists (hdr n k' step), d. split; [exact A2|]. split; [apply hdr_length|exact A3]. }
    destruct (nth_error (old ++ new) j) as [s|] eqn:N; [|auto]. exists (skipn (length rest) (snap_bytes s)).
    rewrite Forall_forall in G. apply (snap_iff n); [apply G; apply (nth_error_In _ _ N)|]. rewrite (A5 s eq_refl) at 1. rewrite firstn_skipn. reflexivity. }
  split. { assert (Lo : Z.of_nat (length (dat old)) = Z.of_nat (length old) * size_of n) by (apply dat_length; apply Forall_app in G; apply G).
    assert (Z.of_nat (length old) * size_of n <= Z.of_nat q) by lia. assert (Z.of_nat (length old) < Z.of_nat j + 1); [|lia]. set (r := Z.of_nat (length rest)) in *. nia. }
  split; [exact A7|]. split; [exact A8|]. split; [exact A9|]. split; [exact A10|]. split; [exact A11|]. split; [exact A13|]. split; [intros Hf; apply (A14 Hf)|exact A15].
Qed.
(** How much is on the disk. *)
Lemma left_length n step append old new content cs k : fits n step (Z.of_nat (length (old ++ new))) -> Forall (good_snapshot n) (old ++ new) -> session n step append old content ->
  recording content n step append (numbered step (Z.of_nat (length old)) new) = Some cs ->
  length (left_after k cs content) = Nat.min (length content + (k - 1)) (Z.to_nat (33 + Z.of_nat (length (old ++ new)) * size_of n)).
Proof.
  intros F G S R. assert (K : forall C X Y, (length Y <= length (C ++ X))%nat -> length (left_after k (SeekEnd :: puts X ++ Seek 0 :: puts Y) C) = Nat.min (length C + (k - 1)) (length (C ++ X))).
  { intros C X Y H. destruct (crash X Y C k H) as [(j & -> & Hj & Ej)|(i & -> & Hi & Hk & Ei)]; rewrite !app_length in *; rewrite ?firstn_length, ?skipn_length, ?app_length; lia. }
  pose proof G as G'. apply Forall_app in G'. destruct G' as [Go Gn].
  pose proof (dat_length n _ Go) as Lo. pose proof (dat_length n _ Gn) as Ln. rewrite app_length in *.
  destruct append; cbn [session] in S.
  - assert (Fo : fits n step (Z.of_nat (length old))) by (apply (fits_le _ _ _ _ F); lia). apply trajectory_iff in S; auto. rewrite S in *. rewrite recording_append in R by (auto; rewrite app_length; auto). apply some_inj in R. rewrite <- R.
    rewrite K by (rewrite !app_length, !hdr_length; lia). f_equal. rewrite !app_length, hdr_length. nia.
  - destruct S as [-> ->]. cbn [app length] in *. rewrite recording_fresh in R by auto. apply some_inj in R. rewrite <- R. rewrite K by (cbn [app]; rewrite !app_length, !hdr_length; lia). f_equal. cbn [app]. rewrite app_length, hdr_length. lia.
Qed.
