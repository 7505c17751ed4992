From Coq Require Import Reals ZArith List Bool Lia ZifyBool ZifyNat String.
From Verif Require Import TextModel TextProofs LinesModel LinesSpec LinesProofs StringsModel StringsSpec StringsProofs
  GeomModel PbcModel RotModel RotSpec XyzModel XyzSpec XyzTextProofs XyzRecProofs XyzHistProofs OptModel.
Import ListNotations.
Local Open Scope list_scope.
Open Scope Z_scope.

(** *** Any text *)
Lemma headed_header l : headed l <-> header l = true.
Proof. unfold header. rewrite startsWith_iff. reflexivity. Qed.
Lemma not_headed ls : List.Forall (fun l => ~ headed l) ls <-> List.Forall (fun l => header l = false) ls.
Proof. split; intros F; (eapply Forall_impl; [|exact F]); cbn beta; intros l H. - destruct (header l) eqn:E; [|reflexivity]. destruct H. apply headed_header. exact E. - intros K. apply headed_header in K. congruence. Qed.
Lemma any_found t qs h ss a b n rest : t <> [] -> pieces_of newline t (qs ++ h :: ss) -> headed h -> List.Forall (fun l => ~ headed l) ss ->
  h = a ++ tx "cycles=" ++ b -> (forall a' b', h = a' ++ tx "cycles=" ++ b' -> (List.length a <= List.length a')%nat) -> extract_size b = Some (n, rest) ->
  exists r, xyz_create (Some t) true = Done r /\ rc_last r = n /\ file_of r = Some t.
Proof.
  intros N P H F Eh M X. unfold xyz_create. rewrite (append_any _ (qs ++ h :: ss)) by (cbn [io_text]; assumption).
  rewrite back_hit by first [apply headed_header; exact H | apply not_headed; exact F]. rewrite Eh in *. rewrite number_first by exact M. rewrite X. cbn [obind fst]. eexists. split; [reflexivity|]. split; reflexivity.
Qed.
Lemma any_refused t ps : t <> [] -> pieces_of newline t ps ->
  List.Forall (fun l => ~ headed l) ps \/
  (exists qs h ss, ps = qs ++ h :: ss /\ headed h /\ List.Forall (fun l => ~ headed l) ss /\
     (~ occurs (tx "cycles=") h \/ exists a b, h = a ++ tx "cycles=" ++ b /\ (forall a' b', h = a' ++ tx "cycles=" ++ b' -> (List.length a <= List.length a')%nat) /\ extract_size b = None)) ->
  xyz_create (Some t) true = Invalid.
Proof.
  intros N P H. unfold xyz_create. rewrite (append_any _ ps) by (cbn [io_text]; assumption). destruct H as [F|(qs & h & ss & -> & Hh & F & Q)].
  - rewrite back_none by (apply not_headed; exact F). reflexivity.
  - rewrite back_hit by first [apply headed_header; exact Hh | apply not_headed; exact F]. destruct Q as [O|(a & b & Eh & M & X)].
    + rewrite number_none by exact O. reflexivity.
    + rewrite Eh in *. rewrite number_first by exact M. rewrite X. reflexivity.
Qed.

Section cuts.
Variable show : R -> list Z.
Hypothesis numerals : forall x, numeral (show x).

Lemma cut_property l p c a b t w : proper_history (l ++ [(p, c)]) -> texts show l t -> xyz_write show p (cycles_pair c) = Some w -> w = a ++ b ->
  exists h atoms, w = decimal (Z.of_nat (List.length (pk_shapes p))) ++ newline :: h ++ decimal c ++ newline :: atoms /\
  (exists m, h = tx "Lattice" ++ m ++ tx "cycles=") /\ List.Forall (fun z => z <> newline) h /\
  let n := List.length (decimal (Z.of_nat (List.length (pk_shapes p)))) in
  let opened := xyz_create (Some (t ++ a)) true in
  let gives := fun k => exists r, opened = Done r /\ rc_last r = k /\ file_of r = Some (t ++ a) in
  ((List.length a < n + 8)%nat -> l <> [] \/ a = [] -> gives (last_cycle l)) /\
  ((List.length a < n + 8)%nat -> l = [] -> a <> [] -> opened = Invalid) /\
  ((n + 8 <= List.length a <= n + 1 + List.length h)%nat -> opened = Invalid) /\
  (forall k, (n + 1 + List.length h < List.length a)%nat -> (k = (n + 1 + List.length h + List.length (decimal c) - List.length a))%nat -> gives (c / 10 ^ Z.of_nat k)).
Proof.
  intros H T W E. destruct (cut_session show numerals l p c a b t w _ H T W E eq_refl) as ((Ew & Em & Nh) & G).
  exists (before_cycles show p ++ tx "cycles="), (unlines (List.map (atom_line show) (pk_shapes p))). repeat apply conj; auto; apply G.
Qed.
(** The recorder agrees to continue an incomplete file. *)
Lemma atoms_lost l p c t w : proper_history (l ++ [(p, c)]) -> pk_shapes p <> [] -> texts show l t -> xyz_write show p (cycles_pair c) = Some w ->
  exists a b r, w = a ++ b /\ b <> [] /\ xyz_create (Some (t ++ a)) true = Done r /\ rc_last r = c /\ forall fs, ~ frames (t ++ a) fs.
Proof.
  intros H N T W. set (h := before_cycles show p ++ tx "cycles=").
  assert (W1 : w = unlines (frame_lines show (p, c))) by (rewrite write_lines in W; congruence).
  set (a := count p ++ newline :: h ++ decimal c ++ [newline]). set (b := unlines (List.map (atom_line show) (pk_shapes p))).
  assert (Ew : w = a ++ b). { rewrite W1. unfold frame_lines, cycle_line, a, b, h. cbn [unlines flat_map fst snd]. repeat (rewrite <- app_assoc; cbn [app]). reflexivity. }
  destruct (cut_session show numerals l p c a b t w h H T W Ew eq_refl) as (_ & _ & _ & _ & G).
  destruct (G 0%nat) as (r & Er & Lr & _).
  { unfold a. fold (count p). rewrite app_length. cbn [List.length]. rewrite !app_length. pose proof (decimal_nonempty c). destruct (decimal c); [congruence|]. cbn [List.length]. lia. }
  { unfold a. fold (count p). rewrite app_length. cbn [List.length]. rewrite !app_length. cbn [List.length]. lia. }
  exists a, b, r. split; [exact Ew|]. split; [unfold b; destruct (pk_shapes p); [contradiction N; reflexivity|]; cbn [List.map unlines flat_map]; unfold atom_line; discriminate|]. split; [exact Er|].
  split; [rewrite Lr; change (10 ^ Z.of_nat 0) with 1; apply Z.div_1_r|].
  apply (texts_lines show) in T. subst t. apply Forall_app in H. destruct H as [H He]. destruct (Forall_inv He) as [Hp Hc]. cbn [fst snd] in *. clear - numerals H Hp Hc N.
  induction l as [|[q d] l IH]; intros fs F.
  - cbn [hist_lines flat_map unlines app] in F. inversion F as [E|l0 f0 rest0 fs0 R0 F0 E1 E2]; subst.
    + unfold a in *. destruct (count p); discriminate.
    + unfold a, read_frame in R0. rewrite getline_app in R0 by apply count_newline. cbn [obind fst snd] in R0.
      unfold count in R0. rewrite <- (app_nil_r (decimal (Z.of_nat _))) in R0. rewrite extract_decimal in R0 by (destruct Hp; cbn; auto; lia). cbn [obind fst] in R0.
      rewrite app_assoc in R0. rewrite getline_app in R0.
      2:{ pose proof (cycle_newline show numerals (p, c)) as K. unfold cycle_line in K. cbn [fst snd] in K. unfold h. rewrite <- app_assoc. exact K. }
      cbn [obind fst snd] in R0. destruct (pairs (Key []) (h ++ decimal c)); cbn [obind] in R0; [|discriminate]. rewrite Nat2Z.id in R0. destruct (pk_shapes p); [contradiction N; reflexivity|]. discriminate R0.
  - destruct (Forall_inv H) as [Hq Hd]. cbn [fst snd] in *. destruct (frame_read show numerals q (cycles_pair d) Hq (cycles_plain d)) as (w & W & f & Of & Rf). rewrite write_lines in W. injection W as <-.
    cbn [hist_lines flat_map] in F. rewrite unlines_app, <- app_assoc in F. destruct (frames_head _ f _ _ fs Rf F eq_refl) as (fs' & -> & F'). eapply IH; [exact (Forall_inv_tail H)|exact F'].
Qed.
(** A cycle number can lose its last digit. *)
Lemma digit_lost l p c t w : proper_history (l ++ [(p, c)]) -> 10 <= c -> texts show l t -> xyz_write show p (cycles_pair c) = Some w ->
  exists a b r, w = a ++ b /\ b <> [] /\ xyz_create (Some (t ++ a)) true = Done r /\ rc_last r = c / 10.
Proof.
  intros H N T W. set (h := before_cycles show p ++ tx "cycles=").
  assert (W1 : w = unlines (frame_lines show (p, c))) by (rewrite write_lines in W; congruence).
  assert (L2 : (2 <= List.length (decimal c))%nat).
  { destruct (Nat.ltb_spec (List.length (decimal c)) 2) as [L|L]; [|exact L]. exfalso. pose proof (val_bounds (decimal c) (decimal_digits c)) as [_ B]. rewrite decimal_val in B by lia.
    assert (10 ^ Z.of_nat (List.length (decimal c)) <= 10 ^ 1) by (apply Z.pow_le_mono_r; lia). lia. }
  set (d := firstn (List.length (decimal c) - 1) (decimal c)). set (e := skipn (List.length (decimal c) - 1) (decimal c)).
  assert (Ed : decimal c = d ++ e) by (symmetry; apply firstn_skipn). assert (Ld : (List.length d = List.length (decimal c) - 1)%nat) by (unfold d; rewrite firstn_length; lia).
  set (a := count p ++ newline :: h ++ d). set (b := e ++ newline :: unlines (List.map (atom_line show) (pk_shapes p))).
  assert (Ew : w = a ++ b).
  { rewrite W1. unfold frame_lines, cycle_line, a, b, h. cbn [unlines flat_map fst snd]. rewrite Ed. repeat (rewrite <- app_assoc; cbn [app]). reflexivity. }
  destruct (cut_session show numerals l p c a b t w h H T W Ew eq_refl) as (_ & _ & _ & _ & G).
  destruct (G 1%nat) as (r & Er & Lr & _).
  { unfold a. fold (count p). rewrite app_length. cbn [List.length]. rewrite !app_length. lia. }
  { unfold a. fold (count p). rewrite app_length. cbn [List.length]. rewrite !app_length. lia. }
  exists a, b, r. split; [exact Ew|]. split; [unfold b; destruct e; discriminate|]. split; [exact Er|exact Lr].
Qed.
(** After a continuation of a file no reader finds the snapshots. *)
Lemma never_continued l1 l2 t : proper_history (l1 ++ l2) -> List.Forall (fun e => pk_shapes (fst e) <> []) l1 -> l1 <> [] -> l2 <> [] -> texts show l1 t ->
  exists r t', bind_outcome (xyz_create (Some t) true) (record_all show l2) = Done r /\ rc_last r = last_cycle (l1 ++ l2) /\ file_of r = Some t' /\
    forall fs, history_frames show (l1 ++ l2) fs -> ~ frames t' fs.
Proof.
  intros H N N1 N2 T. destruct l1 as [|[p c] l] using rev_ind; [contradiction N1; reflexivity|]. clear IHl. destruct l2 as [|[p2 c2] l2]; [contradiction N2; reflexivity|].
  pose proof H as H0. apply Forall_app in H0. destruct H0 as [H1 H2]. pose proof H1 as H3. apply Forall_app in H3. destruct H3 as [_ He]. destruct (Forall_inv He) as [_ Hc]. cbn [fst snd] in Hc.
  destruct (joint_session show numerals l p c ((p2, c2) :: l2) t (unlines (hist_lines show ((p2, c2) :: l2))) (unlines (hist_lines show l)) Hc T) as (r0 & r & E0 & _ & _ & E1 & Lr & Fr & _).
  { apply texts_lines. reflexivity. } { apply texts_lines. reflexivity. }
  eexists. eexists. split; [rewrite E0; cbn [bind_outcome]; exact E1|]. split.
  - rewrite Lr. unfold last_cycle. rewrite map_app. cbn [List.map]. clear. generalize (List.map snd (l ++ [(p, c)])) as a. generalize (List.map snd l2) as m. intros m a. cbn [snd].
    revert c2. induction m as [|y m IH] using rev_ind; intros c2; [cbn [last]; rewrite last_app; reflexivity|]. change (c2 :: m ++ [y]) with ((c2 :: m) ++ [y]). rewrite app_assoc, !last_app. reflexivity.
  - split; [exact Fr|]. intros fs Hf F. rewrite <- app_assoc in F. apply (joint_broken show numerals l p c p2 c2 l2 (skipn (List.length ((unlines (hist_lines show l) ++ count p) ++ unlines (hist_lines show ((p2, c2) :: l2)))) t) fs); [exact H1| |exact Hf|exact F].
    apply Forall_app in N. destruct N as [_ N]. exact (Forall_inv N).
Qed.
End cuts.
Lemma misused : xyz_create None true = Invalid /\ (forall append, xyz_recorder None append = Precondition) /\
  (forall s, io_text s <> [] -> xyz_recorder (Some s) false = Invalid) /\
  (forall s append, io_text s = [] -> exists r, xyz_recorder (Some s) append = Done r /\ rc_last r = 0 /\ file_of r = Some []) /\
  (forall show p c r, recordSnapshot show p c (close r) = Precondition).
Proof.
  split; [reflexivity|]. split; [reflexivity|]. split; [|split; [|reflexivity]].
  - intros s N. unfold xyz_recorder. cbn [io_put seekp_end seekp]. destruct (io_text s); [contradiction N; reflexivity|reflexivity].
  - intros s append E. unfold xyz_recorder. cbn [io_put seekp_end seekp]. rewrite E. cbn [List.length Nat.eqb negb]. exists (Recorder (Some (seekp 0 s)) 0). split; [destruct append; unfold seekp_end; rewrite E; reflexivity|]. split; [reflexivity|].
    unfold file_of. cbn [rc_out seekp io_text]. rewrite E. reflexivity.
Qed.
