(** Recorders (C27-C29). *)
From Coq Require Import ZArith List Bool Lia ZifyBool ZifyNat.
From Verif Require Import OptModel TrjModel TrjSpec TrjProofs TrjPlayProofs.
Import ListNotations.
Open Scope Z_scope.

Lemma some_inj {A} (a b : A) : Some a = Some b -> a = b. Proof. congruence. Qed.
Definition hdr (n k step : Z) : list Z := writeHeader (Header 1 1 n k step).
Definition dat (ss : list snapshot) : list Z := concat (map snap_bytes ss).
Lemma hdr_length n k step : length (hdr n k step) = 33%nat. Proof. apply header_length. Qed.
Lemma dat_app a b : dat (a ++ b) = dat a ++ dat b. Proof. unfold dat. rewrite map_app, concat_app. reflexivity. Qed.
Lemma dat_length n ss : Forall (good_snapshot n) ss -> Z.of_nat (length (dat ss)) = Z.of_nat (length ss) * size_of n.
Proof. apply data_length. Qed.
Lemma trajectory_iff n step ss l : fits n step (Z.of_nat (length ss)) -> Forall (good_snapshot n) ss ->
  (trajectory n step ss l <-> l = hdr n (Z.of_nat (length ss)) step ++ dat ss).
Proof.
  intros F G. destruct (fits_small _ _ _ F ltac:(lia)) as (A & B & C & _). assert (C' : is_word64 (Z.of_nat (length ss))).
  { unfold is_word64. change (2 ^ 63) with 9223372036854775808 in C. change (2 ^ 64) with 18446744073709551616. lia. }
  split.
  - intros (h & d & -> & H1 & H2). apply header_iff in H1; auto. apply (data_iff n) in H2; auto. rewrite H1, H2. reflexivity.
  - intros ->. exists (hdr n (Z.of_nat (length ss)) step), (dat ss). split; [reflexivity|]. split; [apply header_iff; auto; reflexivity|apply (data_iff n); auto; reflexivity].
Qed.

(** *** Accepted snapshots *)
Lemma record_one n step k s c : 0 <= k -> k + 1 < 2 ^ 64 -> (k + 1) * step < 2 ^ 64 -> 0 < step ->
  recordSnapshot s c (Recorder n step k true) = if Z.eqb c ((k + 1) * step) && Z.eqb (Z.of_nat (length (sn_shapes s))) n then Some (Recorder n step (k + 1) true, puts (snap_bytes s)) else None.
Proof.
  intros A B C D. unfold recordSnapshot. cbn [rc_open rc_snapshots rc_step rc_particles]. rewrite (wrap_small (k + 1)) by lia. rewrite wrap_small by nia. rewrite written.
  destruct (Z.eqb_spec c ((k + 1) * step)) as [->|]; [|rewrite andb_false_r; reflexivity]. assert (0 <? (k + 1) * step = true) as -> by nia.
  cbn [andb]. destruct (_ =? n); reflexivity.
Qed.
Lemma record_all n step : forall ss k, 0 <= k -> (k + Z.of_nat (length ss)) < 2 ^ 64 -> (k + Z.of_nat (length ss)) * step < 2 ^ 64 -> 0 < step ->
  Forall (fun s => Z.of_nat (length (sn_shapes s)) = n) ss ->
  recordAll (numbered step k ss) (Recorder n step k true) = Some (Recorder n step (k + Z.of_nat (length ss)) true, puts (dat ss)).
Proof.
  induction ss as [|s ss IH]; intros k A B C D F; [cbn [numbered recordAll length]; rewrite Z.add_0_r; reflexivity|]. inversion F; subst. cbn [numbered recordAll fst snd].
  assert (L : Z.of_nat (length (s :: ss)) = 1 + Z.of_nat (length ss)) by (cbn [length]; lia). rewrite L in *.
  rewrite record_one by (auto; nia). rewrite !Z.eqb_refl. cbn [andb obind fst]. rewrite IH by (auto; try lia; nia). cbn [obind fst snd].
  f_equal. f_equal; [f_equal; lia|]. unfold dat. cbn [map concat]. unfold puts. rewrite <- map_app. reflexivity.
Qed.
Lemma record_only n step : forall xs k r, 0 <= k -> (k + Z.of_nat (length xs)) < 2 ^ 64 -> (k + Z.of_nat (length xs)) * step < 2 ^ 64 -> 0 < step ->
  recordAll xs (Recorder n step k true) = Some r -> xs = numbered step k (map fst xs) /\ Forall (fun s => Z.of_nat (length (sn_shapes s)) = n) (map fst xs).
Proof.
  induction xs as [|[s c] xs IH]; intros k r A B C D E; [split; [reflexivity|constructor]|]. cbn [recordAll fst snd] in E.
  assert (L : Z.of_nat (length ((s, c) :: xs)) = 1 + Z.of_nat (length xs)) by (cbn [length]; lia). rewrite L in *.
  rewrite record_one in E by (auto; nia). destruct (Z.eqb_spec c ((k + 1) * step)) as [->|]; [|discriminate]. destruct (Z.eqb_spec (Z.of_nat (length (sn_shapes s))) n) as [En|]; [|discriminate].
  cbn [andb obind fst snd] in E. destruct (recordAll xs _) as [r'|] eqn:E'; [|discriminate]. destruct (IH (k + 1) r') as [I1 I2]; auto; try lia; try nia.
  cbn [map numbered fst]. split; [f_equal; auto|constructor; auto].
Qed.

(** *** Opening for recording *)
Lemma good_lengths n ss : Forall (good_snapshot n) ss -> Forall (fun s => Z.of_nat (length (sn_shapes s)) = n) ss.
Proof. apply Forall_impl. intros s (_ & _ & H & _). exact H. Qed.
Lemma fits_k n step k : fits n step k -> 0 <= k -> is_word64 n /\ is_word64 step /\ is_word64 k /\ 0 < n /\ 0 < step.
Proof.
  intros F H. destruct (fits_small _ _ _ F H) as (A & B & C & _). split; [exact A|]. split; [exact B|]. split; [|split; apply F].
  unfold is_word64. change (2 ^ 63) with 9223372036854775808 in C. change (2 ^ 64) with 18446744073709551616. lia.
Qed.
Lemma new_fresh n step : 0 < n -> 0 < step -> newRecorder [] n step false = Some (Recorder n step 0 true, SeekEnd :: puts (hdr n 0 step)).
Proof. intros A B. unfold newRecorder. assert (0 <? n = true) as -> by lia. assert (0 <? step = true) as -> by lia. reflexivity. Qed.
Lemma new_append n step ss : fits n step (Z.of_nat (length ss)) -> Forall (good_snapshot n) ss ->
  newRecorder (hdr n (Z.of_nat (length ss)) step ++ dat ss) n step true = Some (Recorder n step (Z.of_nat (length ss)) true, [SeekEnd]).
Proof.
  intros F G. destruct (fits_k _ _ _ F ltac:(lia)) as (A & B & C & D & E). unfold newRecorder. assert (0 <? n = true) as -> by lia. assert (0 <? step = true) as -> by lia. cbn [andb negb].
  unfold hdr. rewrite read_header by auto. cbn [obind hd_particles hd_step hd_snapshots]. rewrite !Z.eqb_refl. cbn [andb negb]. rewrite (streamoff n _ step (Z.of_nat (length ss))) by (auto; lia).
  rewrite app_length, Nat2Z.inj_add, (dat_length n) by auto. fold (hdr n (Z.of_nat (length ss)) step). rewrite hdr_length. change (Z.of_nat 33) with 33. rewrite Z.eqb_refl. reflexivity.
Qed.
Lemma recording_fresh n step ss : fits n step (Z.of_nat (length ss)) -> Forall (good_snapshot n) ss ->
  recording [] n step false (numbered step 0 ss) = Some (SeekEnd :: puts (hdr n 0 step ++ dat ss) ++ Seek 0 :: puts (hdr n (Z.of_nat (length ss)) step)).
Proof.
  intros F G. destruct (fits_k _ _ _ F ltac:(lia)) as (A & B & C & D & E). unfold recording. rewrite new_fresh by auto. cbn [obind fst snd].
  rewrite record_all by (auto using good_lengths; try (unfold is_word64 in C; lia); rewrite Z.add_0_l; apply F). cbn [obind fst snd close0 rc_open rc_particles rc_snapshots rc_step]. rewrite Z.add_0_l.
  unfold puts. rewrite map_app. cbn [app]. rewrite <- app_assoc. reflexivity.
Qed.
Lemma recording_append n step old new : fits n step (Z.of_nat (length (old ++ new))) -> Forall (good_snapshot n) (old ++ new) ->
  recording (hdr n (Z.of_nat (length old)) step ++ dat old) n step true (numbered step (Z.of_nat (length old)) new) =
    Some (SeekEnd :: puts (dat new) ++ Seek 0 :: puts (hdr n (Z.of_nat (length (old ++ new))) step)).
Proof.
  intros F G. destruct (fits_k _ _ _ F ltac:(lia)) as (A & B & C & D & E). rewrite app_length in *. unfold recording. apply Forall_app in G. destruct G as [G1 G2]. rewrite new_append; auto.
  2:{ apply (fits_le n step _ _ F). lia. }
  cbn [obind fst snd]. unfold is_word64 in C.
  rewrite record_all by (auto using good_lengths; try lia; destruct F as (_ & _ & _ & _ & _ & F); rewrite Nat2Z.inj_add in F; exact F). cbn [obind fst snd close0 rc_open rc_particles rc_snapshots rc_step]. rewrite Nat2Z.inj_add. reflexivity.
Qed.

(** *** Files during and after a recording *)
Lemma perform_close X Y C : (length Y <= length (C ++ X))%nat ->
  perform (SeekEnd :: puts X ++ Seek 0 :: puts Y) (File C 0) = File (Y ++ skipn (length Y) (C ++ X)) (length Y).
Proof.
  intros H. change (SeekEnd :: puts X ++ Seek 0 :: puts Y) with ([SeekEnd] ++ puts X ++ [Seek 0] ++ puts Y). rewrite !perform_app. unfold perform at 4. cbn [fold_left io_step fl_bytes].
  rewrite puts_end. unfold perform at 2. cbn [fold_left io_step fl_bytes]. exact (puts_over Y [] (C ++ X) H).
Qed.
Lemma firstn_puts i X : firstn i (puts X) = puts (firstn i X). Proof. unfold puts. apply firstn_map. Qed.
Lemma crash X Y C k : (length Y <= length (C ++ X))%nat ->
  (exists j, left_after k (SeekEnd :: puts X ++ Seek 0 :: puts Y) C = C ++ firstn j X /\ (j <= length X)%nat /\ j = (k - 1)%nat) \/
  (exists i, left_after k (SeekEnd :: puts X ++ Seek 0 :: puts Y) C = firstn i Y ++ skipn i (C ++ X) /\ (i <= length Y)%nat /\ (1 + length X < k)%nat /\ i = Nat.min (length Y) (k - (2 + length X))).
Proof.
  intros H. unfold left_after. destruct k as [|k]; [left; exists 0%nat; cbn; rewrite app_nil_r; split; [reflexivity|lia]|]. rewrite firstn_cons.
  destruct (Nat.le_gt_cases k (length X)) as [Hk|Hk].
  - left. exists k. split; [|split; lia]. rewrite firstn_app. unfold puts at 2. rewrite map_length. replace (k - length X)%nat with 0%nat by lia. cbn [firstn]. rewrite app_nil_r, firstn_puts.
    change (SeekEnd :: puts (firstn k X)) with ([SeekEnd] ++ puts (firstn k X)). rewrite perform_app. unfold perform at 2. cbn [fold_left io_step fl_bytes]. rewrite puts_end. reflexivity.
  - right. rewrite firstn_app. unfold puts at 2. rewrite map_length. rewrite (firstn_all2 (puts X)) by (unfold puts; rewrite map_length; lia).
    destruct (k - length X)%nat as [|j] eqn:Ej; [lia|]. rewrite firstn_cons, firstn_puts. exists (Nat.min j (length Y)). split; [|split; [lia|split; lia]].
    set (Y' := firstn j Y). assert (L : length Y' = Nat.min j (length Y)) by apply firstn_length. rewrite perform_close by lia. cbn [fl_bytes]. rewrite L. f_equal.
    unfold Y'. destruct (Nat.min_spec j (length Y)) as [[? ->]|[? ->]]; [reflexivity|]. rewrite !firstn_all2 by lia. reflexivity.
Qed.

(** Mixtures of two headers. *)
Lemma mix_prefix {A} i (P X Y : list A) : firstn i (P ++ X) ++ skipn i (P ++ Y) = P ++ firstn (i - length P) X ++ skipn (i - length P) Y.
Proof.
  rewrite firstn_app, skipn_app. destruct (Nat.le_gt_cases i (length P)) as [H|H].
  - replace (i - length P)%nat with 0%nat by lia. cbn [firstn skipn app]. rewrite app_nil_r, app_assoc, firstn_skipn. reflexivity.
  - rewrite (firstn_all2 P), (skipn_all2 P) by lia. rewrite <- app_assoc. reflexivity.
Qed.
Lemma mix_suffix {A} i (X Y S : list A) : length X = length Y -> firstn i (X ++ S) ++ skipn i (Y ++ S) = (firstn i X ++ skipn i Y) ++ S.
Proof.
  intros L. rewrite firstn_app, skipn_app, L. destruct (Nat.le_gt_cases i (length Y)) as [H|H].
  - replace (i - length Y)%nat with 0%nat by lia. cbn [firstn skipn]. rewrite app_nil_r, <- app_assoc. reflexivity.
  - rewrite (skipn_all2 Y), app_nil_r by lia. cbn [app]. rewrite <- app_assoc, firstn_skipn. reflexivity.
Qed.
Lemma mix_value : forall j A B, Forall is_byte A -> Forall is_byte B -> length A = length B -> value B <= value A -> value (firstn j A ++ skipn j B) <= value A.
Proof.
  induction j as [|j IH]; intros A B FA FB L H; [exact H|]. destruct A as [|a A], B as [|b B]; try discriminate L; [exact H|]. inversion FA; inversion FB; subst.
  cbn [firstn skipn app value fold_right] in *. fold (value A) (value B) in *. fold (value (firstn j A ++ skipn j B)). unfold is_byte in *. injection L as L.
  specialize (IH A B ltac:(auto) ltac:(auto) L ltac:(lia)). lia.
Qed.
Lemma mix_header n step k0 k1 i : is_word64 k0 -> is_word64 k1 -> k0 <= k1 ->
  exists k', 0 <= k' <= k1 /\ firstn i (hdr n k1 step) ++ skipn i (hdr n k0 step) = hdr n k' step.
Proof.
  intros A B H. unfold hdr, writeHeader. cbn [hd_minor hd_major hd_particles hd_snapshots hd_step]. set (P := magic ++ [1; 1] ++ word_bytes n).
  assert (E : forall k, magic ++ [1; 1] ++ word_bytes n ++ word_bytes k ++ word_bytes step = P ++ word_bytes k ++ word_bytes step) by (intros; unfold P; rewrite <- !app_assoc; reflexivity).
  rewrite !E, mix_prefix, mix_suffix by (rewrite !word_length; reflexivity). set (j := (i - length P)%nat). set (M := firstn j (word_bytes k1) ++ skipn j (word_bytes k0)).
  assert (LM : length M = 8%nat). { unfold M. rewrite app_length, firstn_length, skipn_length, !word_length. lia. }
  assert (FM : Forall is_byte M). { unfold M. apply Forall_app. split; [pose proof (bytes_bytes 8 k1) as Hb; fold (word_bytes k1) in Hb; rewrite <- (firstn_skipn j) in Hb; apply Forall_app in Hb; apply Hb|].
    pose proof (bytes_bytes 8 k0) as Hb. fold (word_bytes k0) in Hb. rewrite <- (firstn_skipn j) in Hb. apply Forall_app in Hb. apply Hb. }
  exists (value M). split.
  - split; [apply value_bound; auto|]. destruct (stored_bytes k1 B) as (_ & F1 & V1). destruct (stored_bytes k0 A) as (_ & F0 & V0).
    rewrite <- V1. unfold M. apply mix_value; [exact F1|exact F0|rewrite !word_length; reflexivity|lia].
  - rewrite E. f_equal. f_equal. apply stored_unique. split; [exact LM|]. split; [exact FM|reflexivity].
Qed.

(** What any crash leaves behind. *)
Definition prefix_state (n step : Z) (all : list snapshot) (l : list Z) : Prop :=
  exists k' q, 0 <= k' <= Z.of_nat (length all) /\ (q <= length (dat all))%nat /\ l = hdr n k' step ++ firstn q (dat all).
Lemma crash_fresh n step all cs k : fits n step (Z.of_nat (length all)) -> Forall (good_snapshot n) all ->
  recording [] n step false (numbered step 0 all) = Some cs ->
  (length (left_after k cs []) < 33)%nat \/ prefix_state n step all (left_after k cs []).
Proof.
  intros F G R. rewrite recording_fresh in R by auto. apply some_inj in R. rewrite <- R. clear R. destruct (fits_k _ _ _ F ltac:(lia)) as (A & B & C & D & E).
  set (X := hdr n 0 step ++ dat all). set (Y := hdr n (Z.of_nat (length all)) step).
  assert (HL : (length Y <= length ([] ++ X))%nat). { unfold X, Y. cbn [app]. rewrite app_length, !hdr_length. lia. }
  destruct (crash X Y [] k HL) as [(j & -> & Hj & _)|(i & -> & Hi & _)]; cbn [app].
  - destruct (Nat.lt_ge_cases j 33) as [Hs|Hs]; [left; rewrite firstn_length; lia|]. right. exists 0, (j - 33)%nat. split; [lia|]. unfold X in *. rewrite app_length, hdr_length in Hj. split; [lia|].
    rewrite firstn_app, hdr_length, firstn_all2 by (rewrite hdr_length; lia). reflexivity.
  - right. unfold X. rewrite skipn_app. unfold Y in Hi. rewrite hdr_length in *. replace (i - 33)%nat with 0%nat by lia. cbn [skipn]. rewrite app_assoc.
    destruct (mix_header n step 0 (Z.of_nat (length all)) i) as (k' & Hk & M); auto; [unfold is_word64; lia|lia|]. exists k', (length (dat all)). split; [exact Hk|]. split; [lia|]. rewrite firstn_all. unfold Y. rewrite M. reflexivity.
Qed.
Lemma crash_append n step old new cs k : fits n step (Z.of_nat (length (old ++ new))) -> Forall (good_snapshot n) (old ++ new) ->
  recording (hdr n (Z.of_nat (length old)) step ++ dat old) n step true (numbered step (Z.of_nat (length old)) new) = Some cs ->
  exists k' q, 0 <= k' <= Z.of_nat (length (old ++ new)) /\ (length (dat old) <= q <= length (dat (old ++ new)))%nat /\
    left_after k cs (hdr n (Z.of_nat (length old)) step ++ dat old) = hdr n k' step ++ firstn q (dat (old ++ new)).
Proof.
  intros F G R. rewrite recording_append in R by auto. apply some_inj in R. rewrite <- R. clear R. destruct (fits_k _ _ _ F ltac:(lia)) as (A & B & C & D & E).
  set (X := dat new). set (Y := hdr n (Z.of_nat (length (old ++ new))) step). set (C0 := hdr n (Z.of_nat (length old)) step ++ dat old). rewrite dat_app.
  assert (HL : (length Y <= length (C0 ++ X))%nat). { unfold C0, Y. rewrite !app_length, !hdr_length. lia. }
  assert (Hlen : Z.of_nat (length old) <= Z.of_nat (length (old ++ new))) by (rewrite app_length; lia).
  destruct (crash X Y C0 k HL) as [(j & -> & Hj & _)|(i & -> & Hi & _)].
  - exists (Z.of_nat (length old)), (length (dat old) + j)%nat. split; [lia|]. split; [rewrite app_length; unfold X in Hj; lia|]. unfold C0. rewrite <- app_assoc. f_equal.
    rewrite firstn_app, (firstn_all2 (dat old)) by lia. f_equal. f_equal. lia.
  - unfold C0. rewrite <- app_assoc, skipn_app. unfold Y in Hi. rewrite hdr_length in *. replace (i - 33)%nat with 0%nat by lia. cbn [skipn]. rewrite app_assoc.
    destruct (mix_header n step (Z.of_nat (length old)) (Z.of_nat (length (old ++ new))) i) as (k' & Hk & M); auto; [unfold is_word64 in *; lia|].
    exists k', (length (dat old ++ dat new)). split; [exact Hk|]. split; [rewrite app_length; lia|]. rewrite firstn_all. unfold Y. rewrite M. reflexivity.
Qed.

(** *** Opening what was left *)
Lemma split_data n : forall all q, 0 < n -> Forall (good_snapshot n) all -> (q <= length (dat all))%nat ->
  exists j rest, (j <= length all)%nat /\ firstn q (dat all) = dat (firstn j all) ++ rest /\ Z.of_nat (length rest) < size_of n /\
    (forall s, nth_error all j = Some s -> rest = firstn (length rest) (snap_bytes s)) /\ (nth_error all j = None -> rest = []) /\
    Z.of_nat q = Z.of_nat j * size_of n + Z.of_nat (length rest).
Proof.
  induction all as [|s all IH]; intros q Hn G Hq.
  - exists 0%nat, []. cbn in Hq. replace q with 0%nat by lia. split; [cbn; lia|]. split; [reflexivity|]. split; [cbn; apply size_pos; auto|]. split; [intros s H; discriminate|]. split; [reflexivity|]. cbn. lia.
  - inversion G; subst. pose proof (snap_length n s ltac:(assumption)) as L. change (dat (s :: all)) with (snap_bytes s ++ dat all) in *. rewrite app_length in Hq.
    destruct (Nat.lt_ge_cases q (length (snap_bytes s))) as [H|H].
    + exists 0%nat, (firstn q (snap_bytes s)). split; [cbn; lia|]. rewrite firstn_app. replace (q - _)%nat with 0%nat by lia. cbn [firstn]. rewrite app_nil_r. split; [reflexivity|].
      rewrite firstn_length, Nat.min_l by lia. split; [lia|]. split; [|split; [discriminate|lia]]. intros s' E. injection E as <-. reflexivity.
    + destruct (IH (q - length (snap_bytes s))%nat Hn ltac:(assumption) ltac:(lia)) as (j & rest & A & B & C & D & D' & E). exists (S j), rest. split; [cbn; lia|].
      rewrite firstn_app, firstn_all2, B by lia. cbn [firstn]. change (dat (s :: firstn j all)) with (snap_bytes s ++ dat (firstn j all)). rewrite <- app_assoc. split; [reflexivity|].
      split; [exact C|]. split; [exact D|]. split; [exact D'|]. lia.
Qed.
Lemma open_prefix n step all k' q : fits n step (Z.of_nat (length all)) -> Forall (good_snapshot n) all -> 0 <= k' <= Z.of_nat (length all) -> (q <= length (dat all))%nat ->
  let l := hdr n k' step ++ firstn q (dat all) in
  exists j d rest f p, (j <= length all)%nat /\ l = hdr n k' step ++ d ++ rest /\ data_bytes (firstn j all) d /\ Z.of_nat (length rest) < size_of n /\
    (forall s, nth_error all j = Some s -> rest = firstn (length rest) (snap_bytes s)) /\ (nth_error all j = None -> rest = []) /\
    Z.of_nat q = Z.of_nat j * size_of n + Z.of_nat (length rest) /\
    openFixing l (newAutoFix n) = (f, Some p) /\ plays n step (firstn j all) p /\ af_successful f = true /\ af_inferred f = Z.of_nat j /\
    af_remainder f = Z.of_nat (length rest) /\ (j <> 0%nat \/ rest <> [] -> af_perSnapshot f = size_of n) /\
    openPlayer l = (if af_needed f then None else Some p) /\ (af_needed f = false -> rest = [] /\ k' = Z.of_nat j) /\ (af_needed f = true -> rest <> [] \/ k' <> Z.of_nat j) /\
    (forall e, af_needed f = true -> e <> n -> openFixing l (newAutoFix e) = (reportError (newAutoFix e), None)).
Proof.
  intros F G Hk Hq l. destruct (fits_k _ _ _ F ltac:(lia)) as (A & B & C & D & E). destruct (split_data n all q D G Hq) as (j & rest & S1 & S2 & S3 & S4 & S4' & S5).
  assert (Gj : Forall (good_snapshot n) (firstn j all)). { rewrite <- (firstn_skipn j all) in G. apply Forall_app in G. apply G. }
  assert (Lj : Z.of_nat (length (firstn j all)) = Z.of_nat j) by (rewrite firstn_length; lia).
  assert (Fj : fits n step (Z.of_nat (length (firstn j all)))) by (apply (fits_le _ _ _ _ F); lia).
  assert (Hol : holds n (firstn j all) l). { exists (hdr n k' step), rest. split; [unfold l; rewrite S2; reflexivity|apply hdr_length]. }
  assert (Ll : Z.of_nat (length l) = 33 + Z.of_nat q). { unfold l. rewrite app_length, hdr_length, firstn_length. lia. }
  assert (Rh : readHeader l = Some (Header 1 1 n k' step)). { unfold l, hdr. apply read_header; auto. unfold is_word64 in *. lia. }
  assert (So : streamoffForSnapshot (Header 1 1 n k' step) k' = 33 + k' * size_of n) by (apply (streamoff n _ step (Z.of_nat (length all))); auto).
  pose proof (size_pos n D) as Sp. exists j, (dat (firstn j all)), rest.
  destruct (Z.eqb_spec (Z.of_nat q) (k' * size_of n)) as [Eq|Eq].
  - assert (Hj : k' = Z.of_nat j /\ length rest = 0%nat).
    { assert (Ek : k' = Z.of_nat j). { rewrite S5 in Eq. clear - Eq S3 Sp. set (r := Z.of_nat (length rest)) in *. assert (0 <= r) by lia. nia. } split; [exact Ek|]. rewrite Ek in Eq. lia. } destruct Hj as [-> Hr]. apply length_zero_iff_nil in Hr. subst rest.
    exists (reportNofix (Header 1 1 n (Z.of_nat j) step) (newAutoFix n)), (fresh_player (Header 1 1 n (Z.of_nat j) step) l).
    split; [exact S1|]. split; [unfold l; rewrite S2; reflexivity|]. split; [apply (data_iff n); auto|]. split; [exact S3|]. split; [exact S4|]. split; [exact S4'|]. split; [exact S5|].
    assert (Z.of_nat (length l) =? streamoffForSnapshot (Header 1 1 n (Z.of_nat j) step) (Z.of_nat j) = true) as Es by (rewrite So; lia).
    unfold openFixing, openPlayer. rewrite Rh. cbn [hd_snapshots obind]. rewrite Es. split; [reflexivity|]. split; [apply fresh_plays; auto; cbn; lia|].
    cbn [reportNofix af_successful af_inferred af_remainder af_needed af_perSnapshot hd_snapshots newAutoFix negb].
    split; [reflexivity|]. split; [reflexivity|]. split; [reflexivity|]. split. { intros [H|H]; [|congruence]. apply (snapshot_size n); auto. destruct F as (_ & _ & _ & _ & F & _). change (2 ^ 63) with 9223372036854775808 in F. change (2 ^ 64) with 18446744073709551616. nia. }
    split; [reflexivity|]. split; [auto|]. split; [discriminate|]. discriminate.
  - assert (Hs : size_of n < 2 ^ 63). { destruct F as (_ & _ & _ & _ & F & _). destruct all as [|s all']; [|cbn [length] in F; nia]. exfalso. cbn in Hq, Hk. nia. }
    assert (Zs : getSnapshotSize (Header 1 1 n k' step) = size_of n). { apply (snapshot_size n); auto. change (2 ^ 63) with 9223372036854775808 in Hs. change (2 ^ 64) with 18446744073709551616. lia. }
    assert (Es : Z.of_nat (length l) =? streamoffForSnapshot (Header 1 1 n k' step) k' = false) by (rewrite So; lia).
    assert (Eq' : wrap (Z.of_nat (length l) - getHeaderSize) = Z.of_nat q).
    { rewrite Ll. unfold getHeaderSize. rewrite wrap_small; [lia|]. destruct F as (_ & _ & _ & _ & F & _). change (2 ^ 63) with 9223372036854775808 in F. change (2 ^ 64) with 18446744073709551616. pose proof (dat_length n all G). nia. }
    assert (Dv : Z.of_nat q / size_of n = Z.of_nat j) by (rewrite S5; symmetry; apply (Z.div_unique _ _ _ (Z.of_nat (length rest))); lia).
    assert (Md : Z.of_nat q mod size_of n = Z.of_nat (length rest)) by (rewrite S5; symmetry; apply (Z.mod_unique _ _ (Z.of_nat j)); lia).
    exists (AutoFix n true true 0 (Z.of_nat j) (Z.of_nat (length rest)) (size_of n)), (fresh_player (Header 1 1 n (Z.of_nat j) step) l).
    split; [exact S1|]. split; [unfold l; rewrite S2; reflexivity|]. split; [apply (data_iff n); auto|]. split; [exact S3|]. split; [exact S4|]. split; [exact S4'|]. split; [exact S5|].
    unfold openFixing, openPlayer. rewrite Rh. cbn [hd_snapshots obind]. rewrite Es, Eq'. unfold tryFixing. cbn [hd_particles hd_step newAutoFix af_expected]. assert (n =? 0 = false) as -> by lia. assert (step =? 0 = false) as -> by lia.
    rewrite Z.eqb_refl. cbn [orb negb]. rewrite Zs, Dv, Md. split; [reflexivity|]. split; [apply fresh_plays; auto; cbn; lia|].
    cbn [af_successful af_inferred af_remainder af_needed af_perSnapshot]. split; [reflexivity|]. split; [reflexivity|]. split; [reflexivity|]. split; [reflexivity|]. split; [reflexivity|].
    split; [discriminate|]. split. { intros _. destruct rest; [right|left; discriminate]. intros ->. apply Eq. cbn [length] in S5. lia. }
    intros e _ He. destruct (Z.eqb_spec n e); [congruence|]. reflexivity.
Qed.
