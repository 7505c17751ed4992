(** Proofs about orthorhombic arrangements in old input files. *)
From Coq Require Import Reals ZArith List Bool String Lia Lra.
From Verif Require Import TextModel StringsModel StringsSpec StringsProofs TextProofs RamsnapSpec GeomModel GeomProofs PbcModel LoadModel LegacyModel LegacySpec LegacyProofs LegacyCommandProofs OrthoModel OrthoSpec OrthoProofs OrthoFinalProofs FactorySpec FactoryProofs LegacyArrangeModel LegacyArrangeSpec OptModel.
Import ListNotations.
Open Scope Z_scope.

Notation flat ws := (flat_map (fun w : text => space :: w) ws).
Lemma prefix_iff p : forall s, is_prefix p s = true <-> exists b, s = p ++ b.
Proof.
  induction p as [|a p IH]; intros s; [split; [exists s; reflexivity|reflexivity]|]. destruct s as [|c s]; cbn [is_prefix]; [split; [discriminate|intros (b & H); discriminate H]|].
  rewrite andb_true_iff, Z.eqb_eq, IH. split; [intros (-> & b & ->); exists b; reflexivity|]. intros (b & H). injection H as -> ->. split; [reflexivity|exists b; reflexivity].
Qed.
Lemma occurs_iff p s : occurs p s = true <-> mentions p s.
Proof.
  unfold mentions. induction s as [|c s IH]; cbn [occurs]; rewrite orb_true_iff, prefix_iff.
  - split; [intros [(b & H)|H]; [exists [], b; exact H|discriminate H]|]. intros (a & b & H). symmetry in H. apply app_eq_nil in H. destruct H as (_ & H). left. exists b. symmetry. exact H.
  - rewrite IH. split; [intros [(b & H)|(a & b & H)]; [exists [], b; exact H|exists (c :: a), b; cbn; rewrite H; reflexivity]|].
    intros (a & b & H). destruct a as [|x a]; [left; exists b; exact H|right]. injection H as _ H. exists a, b. exact H.
Qed.
Definition unspaced (w : text) : Prop := Forall (fun c => is_space c = false) w.
Lemma occ_skip k w r : unspaced w -> occurs (space :: k) (w ++ r) = occurs (space :: k) r.
Proof.
  induction 1 as [|c w C _ IH]; [reflexivity|]. cbn [app occurs is_prefix]. destruct (Z.eqb_spec space c) as [<-|_]; [discriminate C|]. cbn [andb orb]. exact IH.
Qed.
Lemma occ_word k w r : unspaced w -> occurs (space :: k) (space :: w ++ r) = is_prefix k (w ++ r) || occurs (space :: k) r.
Proof. intros W. rewrite <- (occ_skip k w r W). reflexivity. Qed.
Definition initial (c : Z) : Prop := c = 97 \/ c = 100 \/ c = 112 \/ c = 115.
Lemma pre_plain c k w r : initial c -> word_like w -> plain w -> is_prefix (c :: k) (w ++ r) = false.
Proof. intros I (N & _) P. destruct w as [|x w]; [contradiction N; reflexivity|]. cbn [app is_prefix plain] in *. destruct (Z.eqb_spec c x) as [<-|]; [|reflexivity]. unfold initial in I. lia. Qed.
Lemma occ_plain c k w r : initial c -> word_like w -> plain w -> occurs (space :: c :: k) (space :: w ++ r) = occurs (space :: c :: k) r.
Proof. intros I W P. rewrite occ_word by apply W. rewrite (pre_plain c k w r I W P). reflexivity. Qed.

Definition keys : list text := [str "synclinic "; str "anticlinic "; str "polar "; str "antipolar "; str "default"; str "spacing "].
Lemma key_initial k : In k keys -> exists c k', k = c :: k' /\ initial c.
Proof. intros [<-|[<-|[<-|[<-|[<-|[<-|[]]]]]]]; eexists; eexists; (split; [reflexivity|unfold initial; vm_compute; tauto]). Qed.
Lemma str_unspaced s : forallb (fun c => negb (is_space c)) (str s) = true -> unspaced (str s).
Proof. intros H. apply Forall_forall. intros c I. rewrite forallb_forall in H. specialize (H c I). destruct (is_space c); [discriminate H|reflexivity]. Qed.
Lemma axis_like a : word_like (axis_word a).
Proof. destruct a; (split; [discriminate|repeat constructor]). Qed.
Lemma axis_plain a : plain (axis_word a). Proof. destruct a; cbn; lia. Qed.
Lemma axis_named a : parse_axis_name (axis_word a) = Some a. Proof. destruct a; reflexivity. Qed.
Lemma flat_stops ws : stops (flat ws). Proof. destruct ws; [exact I|reflexivity]. Qed.

Section Texts.
Variable scan : text -> option (R * text).
Variable stod : text -> option R.
Variable minimal : arranging -> nat -> (axis -> nat) -> text -> option vec.
Hypothesis Hs : scanner scan.

Definition tilt_key (t : option (bool * axis * number)) (k : text) : bool :=
  match t with None => false | Some (anti, _, _) => text_eqb k (if anti then str "anticlinic " else str "synclinic ") end.
Definition polar_key (p : option (bool * axis)) (k : text) : bool := match p with None => false | Some (anti, _) => text_eqb k (if anti then str "antipolar " else str "polar ") end.
Definition layout_key (l : layout) (k : text) : bool := match l with default_layout => text_eqb k (str "default") | spacing_layout _ _ _ _ _ => text_eqb k (str "spacing ") | _ => false end.
Lemma occ_tilt k t ws : In k keys -> match t with Some (_, _, x) => good_number scan stod x | None => True end ->
  occurs (space :: k) (flat (tilt_words t ++ ws)) = tilt_key t k || occurs (space :: k) (flat ws).
Proof.
  intros K G. destruct t as [[[anti a] x]|]; [|reflexivity]. destruct G as ((Wx & _) & Px & _). destruct (key_initial k K) as (c & k' & E & I).
  cbn [tilt_words app flat_map tilt_key]. rewrite occ_word by (destruct anti; apply str_unspaced; reflexivity). rewrite E at 2. cbn [app]. rewrite occ_plain by (auto using axis_like, axis_plain). rewrite occ_plain by assumption. rewrite <- E. f_equal.
  destruct anti, K as [<-|[<-|[<-|[<-|[<-|[<-|[]]]]]]]; reflexivity.
Qed.
Lemma occ_polar k p ws : In k keys -> ws <> [] -> occurs (space :: k) (flat (polar_words p ++ ws)) = polar_key p k || occurs (space :: k) (flat ws).
Proof.
  intros K _. destruct p as [[anti a]|]; [|reflexivity]. destruct (key_initial k K) as (c & k' & E & I).
  cbn [polar_words app flat_map polar_key]. rewrite occ_word by (destruct anti; apply str_unspaced; reflexivity). rewrite E at 2. cbn [app]. rewrite occ_plain by (auto using axis_like, axis_plain). rewrite <- E. f_equal.
  destruct anti, K as [<-|[<-|[<-|[<-|[<-|[<-|[]]]]]]]; reflexivity.
Qed.
Lemma occ_plains c k ws : initial c -> Forall (fun w => word_like w /\ plain w) ws -> occurs (space :: c :: k) (flat ws) = false.
Proof. intros I. induction 1 as [|w ws (W & P) _ IH]; [reflexivity|]. cbn [flat_map app]. rewrite occ_plain by assumption. exact IH. Qed.
Lemma size_plain k : good_size k -> word_like (size_word k) /\ plain (size_word k). Proof. intros (A & B & _). auto. Qed.
Lemma number_plain x : good_number scan stod x -> word_like (number_word x) /\ plain (number_word x). Proof. intros ((A & _) & B & _). auto. Qed.
Lemma occ_layout k l : In k keys -> good_layout scan stod l -> occurs (space :: k) (flat (layout_words l)) = layout_key l k.
Proof.
  intros K G. destruct (key_initial k K) as (c & k' & E & I). destruct l; cbn [layout_words good_layout layout_key] in *.
  - destruct K as [<-|[<-|[<-|[<-|[<-|[<-|[]]]]]]]; reflexivity.
  - destruct G as (X & O & P & A & B & C). apply number_plain in X. apply size_plain in A, B, C. set (rest := [number_word x; order; size_word i; size_word j; size_word k0]).
    assert (Q : occurs (space :: k) (flat rest) = false) by (rewrite E; apply (occ_plains c k' rest I); unfold rest; repeat (apply Forall_cons; [tauto|]); apply Forall_nil). assert (Ne : rest <> []) by discriminate. clearbody rest.
    change (flat (str "spacing" :: rest)) with (space :: str "spacing" ++ flat rest). rewrite occ_word by (apply str_unspaced; reflexivity). rewrite Q. rewrite orb_false_r.
    destruct K as [<-|[<-|[<-|[<-|[<-|[<-|[]]]]]]]; try reflexivity; (destruct rest; [contradiction Ne; reflexivity|reflexivity]).
  - destruct G as (A & B & C). apply size_plain in A, B, C. rewrite E. apply occ_plains; [exact I|repeat (apply Forall_cons; [tauto|]); apply Forall_nil].
  - destruct G as (X & Y & Z & A & B & C). apply number_plain in X, Y, Z. apply size_plain in A, B, C. rewrite E. apply occ_plains; [exact I|repeat (apply Forall_cons; [tauto|]); apply Forall_nil].
Qed.
Lemma occ_written kind d k : In k keys -> unspaced kind -> good scan stod d ->
  occurs (space :: k) (written kind d) = tilt_key (tilted d) k || (polar_key (polarised d) k || layout_key (laid d) k).
Proof.
  intros K U (G1 & G2). unfold written, words. rewrite occ_skip by exact U. rewrite occ_tilt by assumption. rewrite occ_polar by (try assumption; destruct (laid d); discriminate). rewrite occ_layout by assumption. reflexivity.
Qed.

(** *** Reading *)
Lemma read_word w ws : word_like w -> extract_word (flat (w :: ws)) = Some (w, flat ws).
Proof. intros W. exact (extract_word_is [space] w (flat ws) ltac:(repeat constructor) W (flat_stops ws)). Qed.
Lemma read_number x ws : good_number scan stod x -> scan (flat (number_word x :: ws)) = Some (value x, flat ws).
Proof. intros ((_ & N) & _). cbn [flat_map]. rewrite <- app_comm_cons, (sc_skips scan Hs) by reflexivity. apply N, flat_stops. Qed.
Lemma read_size k ws : good_size k -> extract_size (flat (size_word k :: ws)) = Some (amount k, flat ws).
Proof. intros (_ & _ & N). exact (N (flat ws) (flat_stops ws)). Qed.
Lemma read_lines i j k ws : good_size i -> good_size j -> good_size k ->
  parse_lines (flat (size_word i :: size_word j :: size_word k :: ws)) = Some (lines_of (amount i) (amount j) (amount k), flat ws).
Proof. intros A B C. unfold parse_lines. rewrite read_size by exact A. cbn [obind fst snd]. rewrite read_size by exact B. cbn [obind fst snd]. rewrite read_size by exact C. reflexivity. Qed.
Lemma stoul_size k : good_size k -> stoul (size_word k) = Some (amount k).
Proof. intros (_ & _ & N). unfold stoul. specialize (N [] I). rewrite app_nil_r in N. rewrite N. reflexivity. Qed.

Lemma tilt_read kind d ws : unspaced kind -> good scan stod d ->
  parse_tilt scan (written kind d) (flat (tilt_words (tilted d) ++ ws)) = Some (clinic (model_of d), tilt_axis (model_of d), tilt_angle (model_of d), flat ws).
Proof.
  intros U G. unfold parse_tilt. change (str " synclinic ") with (space :: str "synclinic "). change (str " anticlinic ") with (space :: str "anticlinic ").
  rewrite !occ_written by (try assumption; cbn; tauto). destruct d as [t p l]. destruct G as (G & _). unfold model_of. cbn [tilted polarised laid clinic tilt_axis tilt_angle] in *.
  assert (L1 : layout_key l (str "synclinic ") = false) by (destruct l; reflexivity). assert (L2 : layout_key l (str "anticlinic ") = false) by (destruct l; reflexivity).
  assert (P1 : polar_key p (str "synclinic ") = false) by (destruct p as [[[] ?]|]; reflexivity). assert (P2 : polar_key p (str "anticlinic ") = false) by (destruct p as [[[] ?]|]; reflexivity).
  rewrite L1, L2, P1, P2, !orb_false_r. destruct t as [[[anti a] x]|]; [|reflexivity]. destruct anti; cbn [tilt_words tilt_key app].
  - change (text_eqb (str "synclinic ") (str "anticlinic ")) with false. change (text_eqb (str "anticlinic ") (str "anticlinic ")) with true. cbv iota.
    rewrite read_word by (split; [discriminate|apply str_unspaced; reflexivity]). cbn [obind fst snd]. rewrite read_word by apply axis_like. cbn [obind fst snd]. rewrite read_number by exact G. cbn [obind fst snd]. rewrite axis_named. reflexivity.
  - change (text_eqb (str "synclinic ") (str "synclinic ")) with true. cbv iota.
    rewrite read_word by (split; [discriminate|apply str_unspaced; reflexivity]). cbn [obind fst snd]. rewrite read_word by apply axis_like. cbn [obind fst snd]. rewrite read_number by exact G. cbn [obind fst snd]. rewrite axis_named. reflexivity.
Qed.
Lemma polar_read kind d ws : unspaced kind -> good scan stod d ->
  parse_polarization (written kind d) (flat (polar_words (polarised d) ++ ws)) = Some (polar (model_of d), polar_axis (model_of d), flat ws).
Proof.
  intros U G. unfold parse_polarization. change (str " polar ") with (space :: str "polar "). change (str " antipolar ") with (space :: str "antipolar ").
  rewrite !occ_written by (try assumption; cbn; tauto). destruct d as [t p l]. unfold model_of. cbn [tilted polarised laid polar polar_axis] in *.
  assert (L1 : layout_key l (str "polar ") = false) by (destruct l; reflexivity). assert (L2 : layout_key l (str "antipolar ") = false) by (destruct l; reflexivity).
  assert (P1 : tilt_key t (str "polar ") = false) by (destruct t as [[[[] ?] ?]|]; reflexivity). assert (P2 : tilt_key t (str "antipolar ") = false) by (destruct t as [[[[] ?] ?]|]; reflexivity).
  rewrite L1, L2, P1, P2, !orb_false_r. cbn [orb]. destruct p as [[anti a]|]; [|reflexivity]. destruct anti; cbn [polar_words polar_key app].
  - change (text_eqb (str "polar ") (str "antipolar ")) with false. change (text_eqb (str "antipolar ") (str "antipolar ")) with true. cbv iota.
    rewrite read_word by (split; [discriminate|apply str_unspaced; reflexivity]). cbn [obind fst snd]. rewrite read_word by apply axis_like. cbn [obind fst snd]. rewrite axis_named. reflexivity.
  - change (text_eqb (str "polar ") (str "polar ")) with true. cbv iota.
    rewrite read_word by (split; [discriminate|apply str_unspaced; reflexivity]). cbn [obind fst snd]. rewrite read_word by apply axis_like. cbn [obind fst snd]. rewrite axis_named. reflexivity.
Qed.

(** *** The box *)
Lemma pos_axes v : OrthoModel.all_axes (fun x => Rltb 0 (vget v x)) = true <-> (0 < vx v /\ 0 < vy v /\ 0 < vz v)%R.
Proof. unfold OrthoModel.all_axes. rewrite !andb_true_iff, !rlt_iff. cbn [vget]. tauto. Qed.
Lemma box_iff t box : parse_box_dimensions scan t = Some box <-> box_text scan t box.
Proof.
  unfold parse_box_dimensions. destruct (occurs (str "auto") t) eqn:O.
  - apply occurs_iff in O. split.
    + destruct (extract_word t) as [[w r]|] eqn:E; cbn [obind fst snd]; [|discriminate]. destruct (text_eqb w (str "auto")) eqn:T; [|discriminate]. intros H. injection H as <-. apply text_eqb_eq in T. subst w. exists r. apply headed_iff. exact E.
    + destruct box as [v|]; cbn [box_text]; [intros (N & _); contradiction|]. intros (args & H). apply headed_iff in H. rewrite H. reflexivity.
  - assert (N : ~ mentions (str "auto") t) by (rewrite <- occurs_iff, O; discriminate). split.
    + unfold parse_vector_from. destruct (scan t) as [[a r1]|] eqn:E1; cbn [obind fst snd]; [|discriminate]. destruct (scan r1) as [[b r2]|] eqn:E2; cbn [obind fst snd]; [|discriminate]. destruct (scan r2) as [[c r3]|] eqn:E3; cbn [obind fst snd]; [|discriminate].
      destruct (OrthoModel.all_axes _) eqn:P; [|discriminate]. intros H. injection H as <-. apply pos_axes in P. cbn [box_text]. destruct P as (Px & Py & Pz). repeat split; try assumption. exists r3. cbn [vx vy vz]. repeat (econstructor; [eassumption|]). constructor.
    + destruct box as [v|]; cbn [box_text].
      * intros (_ & Px & Py & Pz & r & H). inversion H as [|? ? r1 ? ? E1 H1]; subst. inversion H1 as [|? ? r2 ? ? E2 H2]; subst. inversion H2 as [|? ? r3 ? ? E3 H3]; subst. unfold parse_vector_from. rewrite E1. cbn [obind fst snd]. rewrite E2. cbn [obind fst snd]. rewrite E3. cbn [obind fst snd].
        assert (Ev : V3 (vx v) (vy v) (vz v) = v) by (destruct v; reflexivity). rewrite Ev. rewrite (proj2 (pos_axes v) (conj Px (conj Py Pz))). reflexivity.
      * intros (args & b & -> & _). contradiction N. exists b, args. reflexivity.
Qed.
Lemma box_unique t b b' : box_text scan t b -> box_text scan t b' -> b = b'.
Proof. rewrite <- !box_iff. congruence. Qed.

(** *** The whole *)
Lemma vec_eq (u v : vec) : (forall a, vget u a = vget v a) -> u = v.
Proof. intros H. pose proof (H AX). pose proof (H AY). pose proof (H AZ). destruct u as [u1 u2 u3], v as [v1 v2 v3]. cbn [vget vx vy vz] in *. congruence. Qed.
Lemma get_make f a : vget (vmake f) a = f a. Proof. destruct a; reflexivity. Qed.
Lemma in_iff a n lines cell box b shapes : arrange_in a n lines cell box = Some (b, shapes) <-> b = box /\ arrange a n lines cell box = Some shapes.
Proof. unfold arrange_in. destruct (arrange a n lines cell box); cbn [obind]; split; [intros H; injection H as <- <-; auto|intros (-> & H); congruence|discriminate|intros (_ & H); discriminate H]. Qed.
Lemma lines_numbers i j k : lines_of (amount i) (amount j) (amount k) = numbers_of i j k. Proof. reflexivity. Qed.
Lemma whole_get lines cell a : vget (whole_box lines cell) a = (vget cell a * INR (lines a))%R. Proof. apply get_make. Qed.
Lemma layout_read kind d n box b shapes : unspaced kind -> good scan stod d ->
  (if occurs (str " default") (written kind d) then parse_default (flat (layout_words (laid d))) n box (model_of d)
   else if occurs (str " spacing ") (written kind d) then parse_spacing scan minimal (flat (layout_words (laid d))) n (model_of d)
   else parse_explicit_sizes stod (flat (layout_words (laid d))) n box (model_of d)) = Some (b, shapes) <->
  (laid d = default_layout /\ box = Some b /\ arrange_default (model_of d) n b = Some shapes) \/
  (exists lines cell, geometry minimal n box d lines cell b /\ (n <= sites lines)%nat /\ arrange (model_of d) n lines cell b = Some shapes).
Proof.
  intros U G. change (str " default") with (space :: str "default"). change (str " spacing ") with (space :: str "spacing "). rewrite !occ_written by (try assumption; cbn; tauto).
  assert (T1 : tilt_key (tilted d) (str "default") = false) by (destruct (tilted d) as [[[[] ?] ?]|]; reflexivity). assert (T2 : tilt_key (tilted d) (str "spacing ") = false) by (destruct (tilted d) as [[[[] ?] ?]|]; reflexivity).
  assert (P1 : polar_key (polarised d) (str "default") = false) by (destruct (polarised d) as [[[] ?]|]; reflexivity). assert (P2 : polar_key (polarised d) (str "spacing ") = false) by (destruct (polarised d) as [[[] ?]|]; reflexivity).
  rewrite T1, T2, P1, P2. cbn [orb]. clear T1 T2 P1 P2. destruct G as (_ & G). unfold geometry. set (a := model_of d). clearbody a. destruct (laid d) as [|x order i j k|i j k|x y z i j k]; cbn [good_layout layout_key layout_words] in *.
  - change (text_eqb (str "default") (str "default")) with true. cbv iota. unfold parse_default. rewrite read_word by (split; [discriminate|apply str_unspaced; reflexivity]). cbn [obind fst snd]. change (text_eqb (str "default") (str "default")) with true. cbv iota.
    split.
    + destruct box as [b0|]; cbn [obind]; [|discriminate]. destruct (arrange_default a n b0) as [sh|] eqn:E; cbn [obind]; [|discriminate]. intros H. injection H as <- <-. left. auto.
    + intros [(_ & -> & E)|(lines & cell & F & _)]; [|destruct F]. cbn [obind]. rewrite E. reflexivity.
  - destruct G as (X & O & _ & A & B & C). change (text_eqb (str "default") (str "spacing ")) with false. change (text_eqb (str "spacing ") (str "spacing ")) with true. cbv iota. unfold parse_spacing.
    rewrite read_word by (split; [discriminate|apply str_unspaced; reflexivity]). cbn [obind fst snd]. rewrite read_number by exact X. cbn [obind fst snd]. rewrite read_word by exact O. cbn [obind fst snd]. rewrite read_lines by assumption. cbn [obind fst snd].
    change (text_eqb (str "spacing") (str "spacing")) with true. cbn [andb]. rewrite lines_numbers. split.
    + destruct (Rltb 0 (value x) && Nat.leb n (lattice_sites (numbers_of i j k))) eqn:E; [|discriminate]. apply andb_true_iff in E. destruct E as (E1 & E2). apply rlt_iff in E1. apply Nat.leb_le in E2.
      destruct (minimal a n (numbers_of i j k) order) as [m|] eqn:M; cbn [obind]; [|discriminate]. intros H. apply in_iff in H. destruct H as (-> & H). right. eexists. eexists. split; [|split; [exact E2|exact H]].
      split; [reflexivity|]. split; [exact E1|]. exists m. split; [exact M|]. split; intros q; [apply get_make|apply whole_get].
    + intros [(H & _)|(lines & cell & (-> & E1 & m & M & Hc & Hb) & E2 & H)]; [discriminate H|]. apply rlt_iff in E1. rewrite E1. unfold lattice_sites. unfold sites in E2. apply Nat.leb_le in E2. rewrite E2. cbn [andb]. rewrite M. cbn [obind].
      assert (Ec : vmake (fun q => (vget m q + value x)%R) = cell) by (apply vec_eq; intros q; rewrite get_make, Hc; reflexivity). rewrite Ec. apply in_iff.
      assert (Eb : whole_box (numbers_of i j k) cell = b) by (apply vec_eq; intros q; rewrite whole_get, Hb; reflexivity). rewrite Eb. auto.
  - destruct G as (A & B & C). cbv iota. unfold parse_explicit_sizes. rewrite read_word by apply A. cbn [obind fst snd]. rewrite read_word by apply B. cbn [obind fst snd]. rewrite read_word by apply C. cbn [obind fst snd flat_map isAnythingLeft negb].
    rewrite !stoul_size by assumption. cbn [obind]. rewrite lines_numbers. split.
    + destruct box as [b0|]; cbn [obind]; [|discriminate]. destruct (Nat.leb n (lattice_sites (numbers_of i j k))) eqn:E; [|discriminate]. apply Nat.leb_le in E. intros H. apply in_iff in H. destruct H as (-> & H). right. eexists. eexists. split; [|split; [exact E|exact H]].
      split; [reflexivity|]. split; [reflexivity|]. intros q. apply get_make.
    + intros [(H & _)|(lines & cell & (-> & -> & Hc) & E & H)]; [discriminate H|]. cbn [obind]. unfold lattice_sites. unfold sites in E. apply Nat.leb_le in E. rewrite E. apply in_iff.
      assert (Ec : vmake (fun q => (vget b q / INR (numbers_of i j k q))%R) = cell) by (apply vec_eq; intros q; rewrite get_make, Hc; reflexivity). rewrite Ec. auto.
  - destruct G as (X & Y & Z & A & B & C). cbv iota. unfold parse_explicit_sizes. rewrite read_word by apply (number_plain x X). cbn [obind fst snd]. rewrite read_word by apply (number_plain y Y). cbn [obind fst snd]. rewrite read_word by apply (number_plain z Z). cbn [obind fst snd].
    assert (L : isAnythingLeft (flat [size_word i; size_word j; size_word k]) = true).
    { destruct A as ((N & W) & _). cbn [flat_map]. destruct (size_word i) as [|c w]; [contradiction N; reflexivity|]. inversion W as [|? ? Hc _]; subst. cbn [app isAnythingLeft skip_ws]. change (is_space space) with true. cbv iota. rewrite Hc. reflexivity. }
    rewrite L. cbn [negb]. rewrite (read_lines i j k []) by assumption. cbn [obind fst snd]. destruct X as (_ & _ & X), Y as (_ & _ & Y), Z as (_ & _ & Z). rewrite X, Y, Z. cbn [obind]. rewrite lines_numbers. split.
    + destruct (OrthoModel.all_axes _) eqn:P; [|discriminate]. apply pos_axes in P. cbn [vx vy vz] in P. destruct (Nat.leb n (lattice_sites (numbers_of i j k))) eqn:E; [|discriminate]. apply Nat.leb_le in E. intros H. apply in_iff in H. destruct H as (Hb & H). rewrite <- Hb in H. right. eexists. eexists. split; [|split; [exact E|exact H]].
      split; [reflexivity|]. split; [tauto|]. split; [tauto|]. split; [tauto|]. split; [reflexivity|]. destruct box as [b0|]; [left; congruence|right]. split; [reflexivity|]. intros q. rewrite Hb. apply whole_get.
    + intros [(H & _)|(lines & cell & (-> & Px & Py & Pz & -> & Hb) & E & H)]; [discriminate H|]. rewrite (proj2 (pos_axes (V3 (value x) (value y) (value z))) (conj Px (conj Py Pz))). unfold lattice_sites. unfold sites in E. apply Nat.leb_le in E. rewrite E. apply in_iff.
      assert (Eb : b = match box with Some b0 => b0 | None => whole_box (numbers_of i j k) (V3 (value x) (value y) (value z)) end).
      { destruct Hb as [->|(-> & Hb)]; [reflexivity|]. apply vec_eq. intros q. rewrite whole_get, Hb. reflexivity. }
      rewrite <- Eb. auto.
Qed.
Definition means_arranged (n : nat) (box : option vec) (d : arrangement) (b : vec) (shapes : list shape) : Prop :=
  (tilted d <> None -> polarised d <> None) /\
  ((laid d = default_layout /\ box = Some b /\ arrange_default (model_of d) n b = Some shapes) \/
   (exists lines cell, geometry minimal n box d lines cell b /\ (n <= sites lines)%nat /\ arrange (model_of d) n lines cell b = Some shapes)).
Lemma means_iff n box d b shapes : means_arranged n box d b shapes <-> means minimal n box d b shapes.
Proof.
  assert (Q : arrange_default (model_of d) n b = Some shapes <-> placed_by_default (model_of d) n b shapes).
  { rewrite default_whole. unfold placed_by_default. split; intros (A & B & k & C); (split; [exact A|]; split; [exact B|]; exists k; tauto). }
  unfold means_arranged, means. rewrite Q. split; (intros (T & [H|(lines & cell & A & B & C)]); (split; [exact T|]); [left; exact H|right; exists lines, cell; split; [exact A|]; split; [exact B|]; apply arrange_whole; exact C]).
Qed.
Lemma written_iff kind d n bt box b shapes : kind = str "orthorhombic" \/ kind = str "lattice" -> good scan stod d -> box_text scan bt box ->
  arrange_packing scan stod minimal n bt (written kind d) = Some (b, shapes) <-> means minimal n box d b shapes.
Proof.
  intros K G Hb. rewrite <- means_iff. apply box_iff in Hb. unfold arrange_packing. assert (W : word_like kind) by (destruct K as [->| ->]; (split; [discriminate|apply str_unspaced; reflexivity])).
  rewrite (extract_word_is [] kind (flat (words d)) (Forall_nil _) W (flat_stops _) : extract_word (written kind d) = _). cbn [obind fst snd].
  assert (Ek : text_eqb kind (str "orthorhombic") || text_eqb kind (str "lattice") = true) by (destruct K as [->| ->]; reflexivity). rewrite Ek. rewrite Hb. cbn [obind]. unfold arrange_orthorhombic_shapes, words.
  assert (U : unspaced kind) by apply W. rewrite tilt_read by assumption. cbn [obind snd]. rewrite polar_read by assumption. cbn [obind].
  assert (Ea : Arranging (polar (model_of d)) (polar_axis (model_of d)) (clinic (model_of d)) (tilt_axis (model_of d)) (tilt_angle (model_of d)) = model_of d) by reflexivity.
  rewrite Ea. clear Ea. pose proof (layout_read kind d n box b shapes U G) as Q. unfold means_arranged. rewrite <- Q. clear Q.
  set (F := if occurs (str " default") _ then _ else _). clearbody F. unfold model_of. cbn [polar clinic]. destruct (tilted d) as [[[[] ?] ?]|], (polarised d) as [[[] ?]|]; split;
    try (intros H; split; [intros _; discriminate|exact H]); try (intros (_ & H); exact H); try discriminate; try (intros (H & _); contradiction H; [discriminate|reflexivity]); (intros H; split; [intros X; contradiction X; reflexivity|exact H]).
Qed.
End Texts.
