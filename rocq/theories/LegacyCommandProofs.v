(** Commands and numbers. *)
From Coq Require Import Reals ZArith List Bool String Lia.
From Verif Require Import TextModel TextProofs StringsModel StringsSpec StringsProofs ConfigModel ConfigProofs RamsnapSpec GeomModel GeoModel XcModel LegacyModel LegacySpec LegacyProofs OptModel.
Import ListNotations.
Open Scope Z_scope.

Lemma trim_parts t : exists b e, spaces b /\ spaces e /\ t = b ++ trim t ++ e /\ trimmed (trim t).
Proof.
  unfold trim, ltrim. destruct (rtrim_split t) as (e & E & T & H). destruct (skip_ws_split (rtrim t)) as (b & B & T' & H').
  exists b, e. split; [exact B|]. split; [exact E|]. split; [rewrite app_assoc, <- T'; exact T|]. split; [exact H'|].
  intros c r Q. apply (H c (b ++ r)). rewrite T', Q, app_assoc. reflexivity.
Qed.
Definition parts_of (t name args : text) : Prop :=
  exists b e, t = b ++ name ++ args ++ e /\ spaces b /\ spaces e /\ word_like name /\ stops args /\ (args = [] \/ is_space (last args 0) = false).
Lemma last_split {A} (l : list A) d : l = [] \/ exists r, l = r ++ [last l d].
Proof. destruct l as [|x l]; [left; reflexivity|right]. exists (removelast (x :: l)). apply app_removelast_last. discriminate. Qed.
Lemma parts_iff t name args : extract_word (trim t) = Some (name, args) <-> parts_of t name args.
Proof.
  split.
  - intros E. apply extract_word_iff in E. destruct E as (b' & B' & E & W & S). destruct (trim_parts t) as (b & e & B & Es & T & (H1 & H2)). exists (b ++ b'), e.
    split; [rewrite T, E, <- !app_assoc; reflexivity|]. split; [apply Forall_app; auto|]. split; [exact Es|]. split; [exact W|]. split; [exact S|].
    destruct (last_split args 0) as [->|(r & Er)]; [left; reflexivity|right]. apply (H2 _ (b' ++ name ++ r)). rewrite E, Er at 1. rewrite <- !app_assoc. reflexivity.
  - intros (b & e & -> & B & Es & W & S & L). assert (T : trimmed (name ++ args)).
    { destruct W as (N & W). split.
      - intros c r Q. destruct name as [|d name]; [contradiction N; reflexivity|]. injection Q as <- _. inversion W; assumption.
      - intros c r Q. destruct args as [|a args].
        + rewrite app_nil_r in Q. subst name. apply Forall_app in W. destruct W as (_ & W). inversion W; assumption.
        + destruct L as [L|L]; [discriminate L|]. destruct (last_split (a :: args) 0) as [X|(r' & Er)]; [discriminate X|]. rewrite Er, app_assoc in Q. apply app_inj_tail in Q. destruct Q as (_ & Q). rewrite <- Q. exact L. }
    replace (b ++ name ++ args ++ e) with (b ++ (name ++ args) ++ e) by (rewrite <- !app_assoc; reflexivity).
    rewrite (trim_outer b (name ++ args) e B Es), (trim_id _ T). exact (extract_word_is [] name args (Forall_nil _) W S).
Qed.

Section Commands.
Variable scan : text -> option (R * text).
Notation numbers := (numbers scan).
Ltac num_inv := repeat match goal with H : LegacySpec.numbers _ _ _ _ |- _ => inversion H; clear H; subst end.
Lemma one_iff (f : R -> command) l c : one scan f l = Some c <-> exists x r, numbers l [x] r /\ c = f x.
Proof.
  unfold one. split.
  - destruct (scan l) as [[x r]|] eqn:E; [|discriminate]. intros X. injection X as <-. exists x, r. split; [econstructor; [exact E|constructor]|reflexivity].
  - intros (x & r & N & ->). num_inv. match goal with H : scan l = _ |- _ => rewrite H end. reflexivity.
Qed.
Lemma two_iff (f : R -> R -> command) l c : two scan f l = Some c <-> exists x y r, numbers l [x; y] r /\ c = f x y.
Proof.
  unfold two. split.
  - destruct (scan l) as [[x r]|] eqn:E; [|discriminate]. cbn [obind snd]. destruct (scan r) as [[y r']|] eqn:E'; [|discriminate]. intros X. injection X as <-.
    exists x, y, r'. split; [econstructor; [exact E|econstructor; [exact E'|constructor]]|reflexivity].
  - intros (x & y & r & N & ->). num_inv. repeat (match goal with H : scan ?a = Some _ |- context [scan ?a] => rewrite H end; cbn [obind snd fst]). reflexivity.
Qed.
Lemma three_iff (f : R -> R -> R -> command) l c : three scan f l = Some c <-> exists x y z r, numbers l [x; y; z] r /\ c = f x y z.
Proof.
  unfold three. split.
  - destruct (scan l) as [[x r]|] eqn:E; [|discriminate]. cbn [obind snd]. destruct (scan r) as [[y r']|] eqn:E'; [|discriminate]. cbn [obind snd].
    destruct (scan r') as [[z r'']|] eqn:E''; [|discriminate]. intros X. injection X as <-.
    exists x, y, z, r''. split; [econstructor; [exact E|econstructor; [exact E'|econstructor; [exact E''|constructor]]]|reflexivity].
  - intros (x & y & z & r & N & ->). num_inv. repeat (match goal with H : scan ?a = Some _ |- context [scan ?a] => rewrite H end; cbn [obind snd fst]). reflexivity.
Qed.
Lemma count_iff (f : nat -> command) l c : count f l = Some c <-> exists n, count_text l n /\ c = f n.
Proof.
  unfold count, count_text. split.
  - destruct (extract_size l) as [[z r]|] eqn:E; [|discriminate]. intros X. injection X as <-. exists (Z.to_nat z). split; [exists z, r; auto|reflexivity].
  - intros (n & (z & r & E & ->) & ->). rewrite E. reflexivity.
Qed.
Lemma left_iff args : args = [] \/ is_space (last args 0) = false -> isAnythingLeft args = match args with [] => false | _ => true end.
Proof.
  intros L. destruct args as [|a args]; [reflexivity|]. destruct L as [L|L]; [discriminate L|]. unfold isAnythingLeft. destruct (skip_ws (a :: args)) eqn:E; [|reflexivity].
  exfalso. destruct (skip_ws_split (a :: args)) as (b & B & Q & _). rewrite E, app_nil_r in Q. subst b. destruct (last_split (a :: args) 0) as [X|(r & X)]; [discriminate X|].
  remember (last (a :: args) 0) as z eqn:Ez. rewrite X in B. apply Forall_app in B. destruct B as (_ & B). inversion B as [|? ? Bz _]. congruence.
Qed.
Definition dispatch (name args : text) : option command :=
  if text_eqb name (str "cuboid") then three scan Cuboid args
  else if text_eqb name (str "diff") then Some Diff
  else if text_eqb name (str "disk") then one scan Disk args
  else if text_eqb name (str "dup") then count Dup args
  else if text_eqb name (str "ellipse") then two scan Ellipse args
  else if text_eqb name (str "ellipsoid") then three scan Ellipsoid args
  else if text_eqb name (str "football") then two scan Football args
  else if text_eqb name (str "move") then three scan Move args
  else if text_eqb name (str "point") then three scan Point args
  else if text_eqb name (str "pop") then Some Pop
  else if text_eqb name (str "rectangle") then two scan Rectangle args
  else if text_eqb name (str "rot") then three scan Rotate args
  else if text_eqb name (str "saucer") then two scan Saucer args
  else if text_eqb name (str "segment") then one scan Segment args
  else if text_eqb name (str "sphere") then one scan Sphere args
  else if text_eqb name (str "sum") then if isAnythingLeft args then count Sum args else Some (Sum 2)
  else if text_eqb name (str "swap") then Some Swap
  else if text_eqb name (str "wrap") then if isAnythingLeft args then count Wrap args else Some (Wrap 2)
  else None.
Ltac known := repeat match goal with |- context [text_eqb (str ?a) (str ?b)] => let v := eval vm_compute in (text_eqb (str a) (str b)) in change (text_eqb (str a) (str b)) with v; cbv iota end.
Lemma dispatch_iff name args c : args = [] \/ is_space (last args 0) = false -> dispatch name args = Some c <-> command_parts scan name args c.
Proof.
  intros L. pose proof (left_iff args L) as Lf. split.
  - unfold dispatch.
    repeat match goal with
    | |- (if text_eqb name ?s then _ else _) = _ -> _ => destruct (text_eqb name s) eqn:?; [match goal with H : text_eqb name s = true |- _ => apply eqb_eq in H; subst name end|]
    end; try discriminate;
    try (rewrite one_iff; intros (x & r & N & ->); cbn; split; [reflexivity|exists r; exact N]);
    try (rewrite two_iff; intros (x & y & r & N & ->); cbn; split; [reflexivity|exists r; exact N]);
    try (rewrite three_iff; intros (x & y & z & r & N & ->); cbn; split; [reflexivity|exists r; exact N]);
    try (rewrite count_iff; intros (n & N & ->); cbn; split; [reflexivity|exact N]);
    try (intros X; injection X as <-; reflexivity).
    all: rewrite Lf; destruct args as [|a args]; [intros X; injection X as <-; cbn; split; [reflexivity|left; auto]|rewrite count_iff; intros (n & N & ->); cbn [command_parts]; split; [reflexivity|right; split; [discriminate|exact N]]].
  - unfold dispatch. destruct c; cbn [command_parts]; intros H;
    try (destruct H as (-> & r & N); known; first [apply one_iff; eexists; exists r; split; [exact N|reflexivity]|apply two_iff; do 2 eexists; exists r; split; [exact N|reflexivity]|apply three_iff; do 3 eexists; exists r; split; [exact N|reflexivity]]);
    try (subst name; known; reflexivity).
    + destruct H as (-> & H). known. rewrite Lf. destruct H as [(-> & ->)|(N & H)]; [reflexivity|]. destruct args; [contradiction N; reflexivity|]. apply count_iff. eexists. split; [exact H|reflexivity].
    + destruct H as (-> & H). known. rewrite Lf. destruct H as [(-> & ->)|(N & H)]; [reflexivity|]. destruct args; [contradiction N; reflexivity|]. apply count_iff. eexists. split; [exact H|reflexivity].
    + destruct H as (-> & H). known. apply count_iff. eexists. split; [exact H|reflexivity].
    + destruct H.
Qed.
Lemma command_iff t c : read_command scan t = Some c <-> command_text scan t c.
Proof.
  unfold read_command, command_text. destruct (extract_word (trim t)) as [[name args]|] eqn:E.
  - change (dispatch name args = Some c <-> command_text scan t c). pose proof E as E0. apply parts_iff in E. destruct E as (b & e & T & B & Es & W & S & L). rewrite (dispatch_iff name args c L). split.
    + intros P. exists b, name, args, e. auto 8.
    + intros (b' & name' & args' & e' & T' & B' & Es' & W' & S' & L' & P).
      assert (X : extract_word (trim t) = Some (name', args')) by (apply parts_iff; exists b', e'; auto 8). rewrite E0 in X. injection X as <- <-. exact P.
  - split; [cbn; discriminate|]. intros (b' & name' & args' & e' & T' & B' & Es' & W' & S' & L' & P).
    assert (X : extract_word (trim t) = Some (name', args')) by (apply parts_iff; exists b', e'; auto 8). congruence.
Qed.

(** Words *)
Hypothesis skips : forall c l, is_space c = true -> scan (c :: l) = scan l.
Lemma scan_skip b l : spaces b -> scan (b ++ l) = scan l.
Proof. induction 1 as [|c b C B IH]; [reflexivity|]. cbn [app]. rewrite skips by exact C. exact IH. Qed.
Lemma words_cut t ws : words_of t ws -> exists b e, t = b ++ trim t ++ e /\ spaces b /\ spaces e /\ words_of (trim t) ws.
Proof.
  intros W. destruct (trim_parts t) as (b & e & B & E & T & TT). exists b, e. split; [exact T|]. split; [exact B|]. split; [exact E|].
  destruct (words_exist _ (trim t) (Nat.le_refl _)) as (ws' & W'). replace ws with ws'; [exact W'|]. apply (words_unique t); [|exact W]. rewrite T. apply words_add; [exact B|].
  clear -W' E. induction W' as [b B|b w r ws B W S R IH].
  - constructor. apply Forall_app; auto.
  - rewrite <- !app_assoc. constructor; [exact B|exact W| |exact IH]. destruct r; [|exact S]. destruct E as [|c e C E]; [exact Logic.I|exact C].
Qed.
Lemma numerals_read : forall ws xs t extra, Forall2 (numeral scan) ws xs -> words_of t (ws ++ extra) -> exists r, numbers t xs r.
Proof.
  intros ws xs t extra F. revert t. induction F as [|w x ws xs (Wl & N) F IH]; intros t W; [exists t; constructor|].
  inversion W as [|b w' r ws' B W' S R]; subst. destruct (IH r R) as (r' & Hr). exists r'. apply (one_more_number scan _ x r); [|exact Hr]. rewrite scan_skip by exact B. apply N. exact S.
Qed.
Lemma command_head t name ws : words_of t (name :: ws) -> exists args, parts_of t name args /\ words_of args ws.
Proof.
  intros W. destruct (words_cut _ _ W) as (b & e & T & B & E & W'). inversion W' as [|b' w r ws' B' Wl S R Q]; subst. exists r. split; [|exact R].
  apply parts_iff. try rewrite <- Q. apply extract_word_is; assumption.
Qed.
Lemma numeric_words c name xs ws extra t : numeric c = Some (name, xs) -> words_of t (str name :: ws ++ extra) -> Forall2 (numeral scan) ws xs -> read_command scan t = Some c.
Proof.
  intros N W F. apply command_iff. destruct (command_head t (str name) (ws ++ extra) W) as (args & (b & e & T & B & E & Wl & S & L) & Wa).
  destruct (numerals_read ws xs args extra F Wa) as (r & Hr). exists b, (str name), args, e. repeat (split; [assumption|]).
  destruct c; try discriminate N; injection N as <- <-; split; try reflexivity; exists r; exact Hr.
Qed.
Lemma numbers_length : forall t xs r, numbers t xs r -> scan [] = None -> forall ws ys, Forall2 (numeral scan) ws ys -> words_of t ws -> (List.length xs <= List.length ws)%nat.
Proof.
  intros t xs r H Z0. induction H as [t|t x r xs r' E N IH]; intros ws ys F W; [cbn; lia|]. destruct F as [|w y ws ys (Wl & Nw) F].
  - inversion W; subst. rewrite <- (app_nil_r t), scan_skip in E by assumption. congruence.
  - inversion W as [|b w' r0 ws' B W' S R]; subst. rewrite scan_skip in E by exact B. rewrite (Nw r0 S) in E. injection E as <- <-. specialize (IH ws ys F R). cbn. lia.
Qed.
Lemma command_parts_numeric c name args xs : numeric c = Some (name, xs) -> command_parts scan (str name) args c -> exists r, numbers args xs r.
Proof. intros N P. destruct c; try discriminate N; injection N as <- <-; cbn in P; destruct P as (_ & P); exact P. Qed.
Lemma str_inj : forall a b, str a = str b -> a = b.
Proof.
  intros a b. unfold str. intros H. rewrite <- (string_of_list_ascii_of_string a), <- (string_of_list_ascii_of_string b). f_equal.
  revert H. generalize (list_ascii_of_string a) (list_ascii_of_string b). induction l as [|x l IH]; intros [|y m] H; try discriminate H; [reflexivity|].
  cbn [map] in H. injection H as H1 H2. f_equal; [|exact (IH m H2)]. apply N2Z.inj in H1. rewrite <- (Ascii.ascii_N_embedding x), <- (Ascii.ascii_N_embedding y). congruence.
Qed.
Lemma numeric_missing c name xs ws ys t : scan [] = None -> numeric c = Some (name, xs) -> words_of t (str name :: ws) -> Forall2 (numeral scan) ws ys -> (List.length ws < List.length xs)%nat -> read_command scan t = None.
Proof.
  intros Z0 N W F L. destruct (read_command scan t) as [c'|] eqn:E; [|reflexivity]. exfalso. apply command_iff in E. destruct E as (b & name' & args & e & T & B & Es & Wl & S & La & P).
  destruct (command_head t (str name) ws W) as (args' & P' & Wa). assert (X : extract_word (trim t) = Some (name', args)) by (apply parts_iff; exists b, e; auto 8).
  apply parts_iff in P'. rewrite P' in X. injection X as <- <-.
  assert (Y : exists xs', numeric c' = Some (name, xs') /\ List.length xs' = List.length xs).
  { destruct c; try discriminate N; injection N as <- <-; destruct c'; cbn in P; try (destruct P as (P & _)); try (vm_compute in P; discriminate P); try contradiction P; eexists; split; reflexivity. }
  destruct Y as (xs' & N' & L'). destruct (command_parts_numeric c' name args' xs' N' P) as (r & Hr). pose proof (numbers_length args' xs' r Hr Z0 ws ys F Wa). lia.
Qed.
End Commands.
