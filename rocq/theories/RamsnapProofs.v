From Coq Require Import ZArith List Bool Lia ZifyBool.
From Verif Require Import OptModel TextModel TextProofs RamsnapModel RamsnapSpec.
Import ListNotations.
Open Scope Z_scope.

Lemma set_last {A} k (v : A) : forall m, Forall (fun e => text_ltb (fst e) k = true) m -> map_set k v m = m ++ [(k, v)].
Proof.
  induction 1 as [|[k' v'] m H _ IH]; [reflexivity|]. cbn [map_set fst] in *. destruct (text_ltb k k') eqn:E.
  - pose proof (text_ltb_trans _ _ _ H E) as T. rewrite text_ltb_irrefl in T. discriminate.
  - destruct (text_eqb k k') eqn:E2; [apply text_eqb_eq in E2; subst; rewrite text_ltb_irrefl in H; discriminate|]. cbn [app]. rewrite IH. reflexivity.
Qed.
Lemma ordered_tail {A} (e : list Z * A) m : ordered_map (e :: m) -> ordered_map m.
Proof. destruct e, m as [|[k v] m]; cbn; [auto|intros [_ H]; exact H]. Qed.
Lemma ordered_head {A} : forall (m : list (list Z * A)) e, ordered_map (e :: m) -> Forall (fun e' => text_ltb (fst e) (fst e') = true) m.
Proof.
  induction m as [|[k v] m IH]; intros e H; constructor.
  - destruct e. apply H.
  - pose proof (ordered_tail _ _ H) as H'. specialize (IH _ H'). destruct e as [k0 v0]. destruct H as [H _]. cbn [fst] in *. eapply Forall_impl; [|exact IH]. intros e'. apply text_ltb_trans. exact H.
Qed.
Lemma entries_back : forall m acc l, ordered_map m -> Forall (fun e => word_like (fst e) /\ line_like (snd e)) m ->
  Forall (fun a => Forall (fun e => text_ltb (fst a) (fst e) = true) m) acc ->
  restoreEntries (length m) acc (newline :: flat_map (fun e => fst e ++ space :: snd e ++ [newline]) m ++ l) = Some (acc ++ m, match m with [] => newline :: l | _ => l end).
Proof.
  assert (K : forall m acc l c, is_space c = true -> m <> [] -> ordered_map m -> Forall (fun e => word_like (fst e) /\ line_like (snd e)) m -> Forall (fun a => Forall (fun e => text_ltb (fst a) (fst e) = true) m) acc ->
    restoreEntries (length m) acc (c :: flat_map (fun e => fst e ++ space :: snd e ++ [newline]) m ++ l) = Some (acc ++ m, l) /\
    restoreEntries (length m) acc (flat_map (fun e => fst e ++ space :: snd e ++ [newline]) m ++ l) = Some (acc ++ m, l)).
  { induction m as [|[k v] m IH]; intros acc l c Hc N O W A; [contradiction N; reflexivity|]. inversion W as [|? ? [[Wk Ws] [(v0 & vr & Ev & Hv) Wl]] W']; subst. cbn [fst snd] in *. subst v.
    cbn [length restoreEntries flat_map fst snd]. rewrite <- !app_assoc. cbn [app]. rewrite <- !app_assoc. cbn [app].
    assert (E1 : forall l', extract_word (k ++ space :: l') = Some (k, space :: l')) by (intros; apply extract_word_app; auto; reflexivity).
    assert (E0 : forall l', extract_word (c :: k ++ space :: l') = extract_word (k ++ space :: l')) by (intros; unfold extract_word; cbn [skip_ws]; rewrite Hc; reflexivity).
    rewrite E0, !E1. cbn [obind fst snd]. rewrite skip_ws_space, skip_ws_none by (cbn; exact Hv).
    assert (E2 : forall l', getline newline ((v0 :: vr) ++ newline :: l') = Some (v0 :: vr, l')) by (intros; apply getline_app; exact Wl).
    cbn [app] in *. rewrite !E2. cbn [obind fst snd]. rewrite set_last.
    2:{ eapply Forall_impl; [|exact A]. intros a Ha. inversion Ha; subst. assumption. }
    pose proof (ordered_head _ _ O) as Oh. cbn [fst] in Oh. pose proof (ordered_tail _ _ O) as Ot.
    destruct m as [|e m]; [cbn [length restoreEntries flat_map app]; auto|].
    assert (A' : Forall (fun a => Forall (fun e' => text_ltb (fst a) (fst e') = true) (e :: m)) (acc ++ [(k, v0 :: vr)])).
    { apply Forall_app. split; [eapply Forall_impl; [|exact A]; intros a Ha; inversion Ha; assumption|]. constructor; [exact Oh|constructor]. }
    destruct (IH (acc ++ [(k, v0 :: vr)]) l c Hc ltac:(discriminate) Ot W' A') as [_ I]. rewrite I, <- app_assoc. split; reflexivity. }
  intros m acc l O W A. destruct m as [|e m]; [cbn; rewrite app_nil_r; reflexivity|]. apply (K (e :: m) acc l newline eq_refl ltac:(discriminate) O W A).
Qed.
Lemma aux_back m l : clean_map m -> exists a, storeAuxInfo m = Some a /\ restoreAuxInfo (a ++ l) = Some (m, l).
Proof.
  intros (N & O & W & L). unfold storeAuxInfo.
  assert (forallb (fun e => negb (existsb is_space (fst e))) m = true) as ->.
  { apply forallb_forall. intros e He. rewrite Forall_forall in W. destruct (W e He) as [[_ F] _]. apply negb_true_iff. apply not_true_iff_false. intros H. apply existsb_exists in H.
    destruct H as (c & Hc & Hs). rewrite Forall_forall in F. rewrite (F c Hc) in Hs. discriminate. }
  eexists. split; [reflexivity|]. unfold restoreAuxInfo. rewrite <- app_assoc. cbn [app]. rewrite extract_decimal by (try lia; reflexivity). cbn [obind fst snd]. rewrite Nat2Z.id.
  rewrite entries_back by auto. destruct m; [contradiction N; reflexivity|]. reflexivity.
Qed.

Section codec.
Variables (D : Type) (show : D -> list Z) (scan : list Z -> option (D * list Z)) (zero : D) (hasVolume : list D -> bool).
Hypothesis C : exact_codec show scan.
Lemma show_digits d l : stops l -> scan (show d ++ l) = Some (d, l). Proof. apply C. Qed.
Lemma scans_spaced : forall ds l, ds <> [] -> stops l -> scans D scan (length ds) (spaced D show ds ++ l) = Some (ds, l).
Proof.
  induction ds as [|d ds IH]; intros l N S; [contradiction N; reflexivity|]. cbn [length scans]. destruct ds as [|d' ds].
  - cbn [spaced length scans]. rewrite show_digits by exact S. reflexivity.
  - assert (E : spaced D show (d :: d' :: ds) = show d ++ space :: spaced D show (d' :: ds)) by reflexivity. rewrite E, <- app_assoc. cbn [app].
    rewrite show_digits by reflexivity. cbn [obind fst snd]. 
    assert (Sp : scans D scan (length (d' :: ds)) (space :: spaced D show (d' :: ds) ++ l) = scans D scan (length (d' :: ds)) (spaced D show (d' :: ds) ++ l)).
    { cbn [length scans]. destruct C as (_ & _ & _ & Ws & _). rewrite Ws by reflexivity. reflexivity. }
    rewrite Sp, IH by (auto; discriminate). reflexivity.
Qed.
Lemma scans_ws n c l : is_space c = true -> scans D scan (S n) (c :: l) = scans D scan (S n) l.
Proof. intros H. cbn [scans]. destruct C as (_ & _ & _ & Ws & _). rewrite Ws by exact H. reflexivity. Qed.
Lemma spaced_app a b : a <> [] -> b <> [] -> spaced D show (a ++ b) = spaced D show a ++ space :: spaced D show b.
Proof.
  intros Na Nb. induction a as [|x a IH]; [contradiction Na; reflexivity|]. destruct a as [|y a].
  - cbn [app]. destruct b; [contradiction Nb; reflexivity|]. reflexivity.
  - assert (E : forall t, spaced D show (x :: y :: t) = show x ++ space :: spaced D show (y :: t)) by reflexivity. cbn [app] in *. rewrite !E, IH by discriminate. rewrite <- app_assoc. reflexivity.
Qed.
Lemma spaced_line ds : Forall (fun c => c <> newline) (spaced D show ds).
Proof.
  assert (H : forall d, Forall (fun c => c <> newline) (show d)).
  { intros d. eapply Forall_impl; [|apply (proj1 (proj2 C) d)]. intros c Hc ->. discriminate Hc. }
  induction ds as [|d ds IH]; [constructor|]. destruct ds as [|d' ds]; [apply H|]. assert (E : spaced D show (d :: d' :: ds) = show d ++ space :: spaced D show (d' :: ds)) by reflexivity. rewrite E.
  apply Forall_app. split; [apply H|]. constructor; [discriminate|exact IH].
Qed.
Lemma spaced_head ds : ds <> [] -> exists c r, spaced D show ds = c :: r /\ is_space c = false.
Proof.
  intros N. destruct ds as [|d ds]; [contradiction N; reflexivity|]. destruct C as (Ne & Ns & _). specialize (Ne d). specialize (Ns d). destruct (show d) as [|c r] eqn:E; [contradiction Ne; reflexivity|].
  inversion Ns; subst. destruct ds as [|d' ds]; [cbn [spaced]; rewrite E; eauto|]. assert (E' : spaced D show (d :: d' :: ds) = show d ++ space :: spaced D show (d' :: ds)) by reflexivity.
  rewrite E', E. cbn [app]. eauto.
Qed.
Lemma box_back box l : length box = 9%nat -> hasVolume box = true -> restoreBox D scan zero hasVolume (storeBox D show box ++ l) = Some (box, l).
Proof.
  intros L V. unfold restoreBox, storeBox. rewrite <- app_assoc. cbn [app]. rewrite getline_app by apply spaced_line. cbn [obind fst snd].
  destruct box as [|a [|b [|c [|d box]]]]; try discriminate L. assert (Ln : length (d :: box) = 6%nat) by (cbn [length] in *; lia).
  assert (E : spaced D show (a :: b :: c :: d :: box) = spaced D show [a; b; c] ++ space :: spaced D show (d :: box)) by (apply (spaced_app [a; b; c] (d :: box)); discriminate). rewrite E.
  assert (S3 : scans D scan 3 (spaced D show [a; b; c] ++ space :: spaced D show (d :: box)) = Some ([a; b; c], space :: spaced D show (d :: box))) by (apply (scans_spaced [a; b; c]); [discriminate|reflexivity]).
  rewrite S3. cbn [obind fst snd]. rewrite skip_ws_space. destruct (spaced_head (d :: box) ltac:(discriminate)) as (h & r & Eh & Hh). rewrite skip_ws_none by (rewrite Eh; exact Hh). rewrite Eh.
  rewrite scans_ws by reflexivity. rewrite <- Eh. assert (S6 : scans D scan 6 (spaced D show (d :: box)) = Some (d :: box, [])).
  { rewrite <- Ln, <- (app_nil_r (spaced D show (d :: box))). apply scans_spaced; [discriminate|exact I]. }
  rewrite S6. cbn [obind fst snd app]. rewrite V. reflexivity.
Qed.
Lemma shapes_loop_back : forall ss c l, is_space c = true -> Forall (fun s => length (fst s) = 3%nat /\ length (snd s) = 9%nat) ss ->
  exists c' , is_space c' = true /\ restoreShapesLoop D scan (length ss) (c :: flat_map (storeShape D show) ss ++ l) = Some (ss, c' :: l).
Proof.
  induction ss as [|[p o] ss IH]; intros c l Hc F; [exists c; split; [exact Hc|reflexivity]|]. inversion F as [|? ? [Lp Lo] F']; subst. cbn [fst snd] in *.
  cbn [length restoreShapesLoop flat_map]. unfold storeShape at 1. cbn [fst snd]. rewrite <- !app_assoc. cbn [app repeat].
  rewrite scans_ws by exact Hc. assert (Sp : forall l', stops l' -> scans D scan 3 (spaced D show p ++ l') = Some (p, l')).
  { intros l' S. rewrite <- Lp. apply scans_spaced; auto. intros ->. discriminate. }
  rewrite Sp by reflexivity. cbn [obind fst snd]. rewrite !scans_ws by reflexivity.
  assert (So : forall l', stops l' -> scans D scan 9 (spaced D show o ++ l') = Some (o, l')).
  { intros l' S. rewrite <- Lo. apply scans_spaced; auto. intros ->. discriminate. }
  rewrite So by reflexivity. cbn [obind fst snd]. destruct (IH newline l eq_refl F') as (c' & H' & ->). exists c'. split; [exact H'|reflexivity].
Qed.
Lemma shapes_back ss : Forall (fun s => length (fst s) = 3%nat /\ length (snd s) = 9%nat) ss -> Z.of_nat (length ss) < 2 ^ 64 ->
  exists r, restoreShapes D scan (storeShapes D show ss) = Some (ss, r).
Proof.
  intros F L. unfold restoreShapes, storeShapes. rewrite extract_decimal by (try lia; reflexivity). cbn [obind fst snd]. rewrite Nat2Z.id.
  destruct (shapes_loop_back ss newline [] eq_refl F) as (c' & _ & E). rewrite app_nil_r in E. rewrite E. eauto.
Qed.
Lemma read_back m box ss l : clean_map m -> clean_packing box ss -> hasVolume box = true -> write D show m box ss = Some l -> read D scan zero hasVolume l = Some (m, box, ss).
Proof.
  intros M (Lb & F & L) V W. unfold write in W. destruct (aux_back m (storeBox D show box ++ storeShapes D show ss) M) as (a & Ea & R). rewrite Ea in W. cbn [obind] in W. injection W as <-.
  unfold read. rewrite R. cbn [obind fst snd]. rewrite box_back by auto. cbn [obind fst snd]. destruct (shapes_back ss F L) as (r & ->). reflexivity.
Qed.
(** Without metadata the end of the first line is taken for the box. *)
Lemma none_empty box ss l : write D show [] box ss = Some l -> read D scan zero hasVolume l = None.
Proof.
  intros W. injection W as <-. unfold read, restoreAuxInfo. change (decimal 0) with [48]. cbn [app]. change (extract_size (48 :: newline :: storeBox D show box ++ storeShapes D show ss)) with (Some (0, newline :: storeBox D show box ++ storeShapes D show ss)).
  cbn [obind fst snd Z.to_nat restoreEntries]. unfold restoreBox. cbn [getline]. change (take_line newline (newline :: _)) with (@nil Z, storeBox D show box ++ storeShapes D show ss). cbn [obind fst scans].
  destruct C as (_ & _ & _ & _ & ->). reflexivity.
Qed.
Lemma box_old x y z l : hasVolume [x; zero; zero; zero; y; zero; zero; zero; z] = true ->
  restoreBox D scan zero hasVolume (spaced D show [x; y; z] ++ newline :: l) = Some ([x; zero; zero; zero; y; zero; zero; zero; z], l).
Proof.
  intros V. unfold restoreBox. rewrite getline_app by apply spaced_line. cbn [obind fst snd].
  assert (S3 : scans D scan 3 (spaced D show [x; y; z] ++ []) = Some ([x; y; z], [])) by (apply (scans_spaced [x; y; z]); [discriminate|exact I]). rewrite app_nil_r in S3. rewrite S3.
  cbn [obind fst snd skip_ws]. rewrite V. reflexivity.
Qed.
End codec.
