From Coq Require Import Decimal DecimalN ZArith NArith List Bool Lia ZifyBool.
From Verif Require Import OptModel TextModel.
Import ListNotations.
Open Scope Z_scope.

Definition ends_digits (l : list Z) : Prop := match l with c :: _ => is_digit c = false | [] => True end.
Lemma take_uint : forall u l, ends_digits l -> take_digits (uint_text u ++ l) = (u, l).
Proof.
  induction u; intros l H; cbn [uint_text app take_digits]; try (cbn [is_digit Z.leb Z.compare andb Pos.compare Pos.compare_cont]; rewrite IHu by exact H; reflexivity).
  destruct l as [|c l]; [reflexivity|]. cbn [take_digits]. unfold ends_digits in H. rewrite H. reflexivity.
Qed.
Lemma uint_digits : forall u, Forall (fun c => is_digit c = true) (uint_text u).
Proof. induction u; cbn; constructor; auto. Qed.
Lemma decimal_digits z : Forall (fun c => is_digit c = true) (decimal z). Proof. apply uint_digits. Qed.
Lemma uint_text_nil u : uint_text u = [] -> u = Nil. Proof. destruct u; cbn; intros H; try discriminate; auto. Qed.
Lemma to_uint_nil n : N.to_uint n <> Nil.
Proof.
  intros H. pose proof (Unsigned.of_to n) as E. rewrite H in E. cbn in E. subst n. discriminate H.
Qed.
Lemma decimal_nonempty z : decimal z <> [].
Proof. intros H. apply uint_text_nil in H. apply (to_uint_nil _ H). Qed.
Lemma digit_not_space c : is_digit c = true -> is_space c = false.
Proof. unfold is_digit, is_space. lia. Qed.
Lemma decimal_no_space z : Forall (fun c => is_space c = false) (decimal z).
Proof. eapply Forall_impl; [|apply decimal_digits]. intros c. apply digit_not_space. Qed.

Lemma skip_ws_none l : (match l with c :: _ => is_space c = false | [] => True end) -> skip_ws l = l.
Proof. destruct l; cbn; intros H; [reflexivity|]. rewrite H. reflexivity. Qed.
Lemma decimal_head z l : exists c r, decimal z = c :: r /\ is_digit c = true /\ skip_ws (decimal z ++ l) = decimal z ++ l.
Proof.
  pose proof (decimal_nonempty z) as N. pose proof (decimal_digits z) as D. destruct (decimal z) as [|c r] eqn:E; [contradiction N; reflexivity|].
  exists c, r. inversion D; subst. split; [reflexivity|]. split; [assumption|]. apply skip_ws_none. cbn. apply digit_not_space. assumption.
Qed.
(** Printed numbers are read back. *)
Lemma extract_decimal z l : 0 <= z < 2 ^ 64 -> ends_digits l -> extract_size (decimal z ++ l) = Some (z, l).
Proof.
  intros H E. unfold extract_size. destruct (decimal_head z l) as (c & r & Ed & Hc & ->).
  assert (T : take_digits (decimal z ++ l) = (N.to_uint (Z.to_N z), l)) by (apply take_uint; exact E).
  assert (S : (match decimal z ++ l with 45 :: r => (true, r) | 43 :: r => (false, r) | _ => (false, decimal z ++ l) end) = (false, decimal z ++ l)).
  { rewrite Ed. cbn [app]. unfold is_digit in Hc. destruct (Z.eq_dec c 45); [subst; discriminate|]. destruct (Z.eq_dec c 43); [subst; discriminate|].
    destruct c as [|p|p]; try reflexivity. do 6 (destruct p as [p|p|]; try reflexivity; try congruence). }
  rewrite S, T. pose proof (to_uint_nil (Z.to_N z)) as Nn. destruct (N.to_uint (Z.to_N z)) eqn:U; [contradiction Nn; reflexivity|..]; rewrite <- U, Unsigned.of_to, Z2N.id by lia;
    (assert (2 ^ 64 <=? z = false) as -> by lia); reflexivity.
Qed.
Lemma skip_ws_space l : skip_ws (space :: l) = skip_ws l. Proof. reflexivity. Qed.
Lemma skip_ws_newline l : skip_ws (newline :: l) = skip_ws l. Proof. reflexivity. Qed.
Lemma extract_size_ws c l : is_space c = true -> extract_size (c :: l) = extract_size l.
Proof. intros H. unfold extract_size. cbn [skip_ws]. rewrite H. reflexivity. Qed.

(** Words. *)
Definition ends_word (l : list Z) : Prop := match l with c :: _ => is_space c = true | [] => True end.
Lemma take_word_app w l : Forall (fun c => is_space c = false) w -> ends_word l -> take_word (w ++ l) = (w, l).
Proof.
  intros F H. induction F as [|c w Hc _ IH]; cbn [app take_word].
  - destruct l as [|c l]; [reflexivity|]. unfold ends_word in H. cbn [take_word]. rewrite H. reflexivity.
  - rewrite Hc, IH. reflexivity.
Qed.
Lemma extract_word_app w l : w <> [] -> Forall (fun c => is_space c = false) w -> ends_word l -> extract_word (w ++ l) = Some (w, l).
Proof.
  intros N F H. unfold extract_word. rewrite skip_ws_none by (destruct F; [contradiction N; reflexivity|cbn; assumption]). rewrite take_word_app by auto. destruct w; [contradiction N; reflexivity|reflexivity].
Qed.

(** Lines. *)
Lemma take_line_app d w l : Forall (fun c => c <> d) w -> take_line d (w ++ d :: l) = (w, l).
Proof.
  induction 1 as [|c w H _ IH]; cbn [app take_line]; [rewrite Z.eqb_refl; reflexivity|]. destruct (Z.eqb_spec c d); [contradiction|]. rewrite IH. reflexivity.
Qed.
Lemma take_line_end d w : Forall (fun c => c <> d) w -> take_line d w = (w, []).
Proof. induction 1 as [|c w H _ IH]; cbn [take_line]; [reflexivity|]. destruct (Z.eqb_spec c d); [contradiction|]. rewrite IH. reflexivity. Qed.
Lemma getline_app d w l : Forall (fun c => c <> d) w -> getline d (w ++ d :: l) = Some (w, l).
Proof. intros H. unfold getline. destruct (w ++ d :: l) eqn:E; [destruct w; discriminate|]. rewrite <- E, take_line_app by auto. reflexivity. Qed.

(** Texts. *)
Lemma text_eqb_refl a : text_eqb a a = true. Proof. induction a; cbn; auto. rewrite Z.eqb_refl. auto. Qed.
Lemma text_eqb_eq : forall a b, text_eqb a b = true <-> a = b.
Proof.
  induction a as [|x a IH]; destruct b as [|y b]; cbn; split; intros H; try discriminate; auto.
  - apply andb_true_iff in H. destruct H as [H1 H2]. apply Z.eqb_eq in H1. apply IH in H2. congruence.
  - injection H as -> ->. rewrite Z.eqb_refl. apply IH. reflexivity.
Qed.
Lemma text_eqb_neq a b : text_eqb a b = false <-> a <> b.
Proof. destruct (text_eqb a b) eqn:E; [apply text_eqb_eq in E; split; congruence|]. split; [|reflexivity]. intros _ H. subst. rewrite text_eqb_refl in E. discriminate. Qed.
Lemma text_ltb_irrefl a : text_ltb a a = false.
Proof. induction a; cbn; auto. rewrite Z.eqb_refl, Z.ltb_irrefl, IHa. reflexivity. Qed.
Lemma text_ltb_trans : forall a b c, text_ltb a b = true -> text_ltb b c = true -> text_ltb a c = true.
Proof.
  induction a as [|x a IH]; destruct b as [|y b], c as [|z c]; cbn; intros H1 H2; try discriminate; auto.
  apply orb_true_iff in H1, H2. apply orb_true_iff. rewrite !andb_true_iff, !Z.ltb_lt, !Z.eqb_eq in *.
  destruct H1 as [H1|[H1 H1']], H2 as [H2|[H2 H2']]; [left; lia|left; lia|left; lia|right]. split; [congruence|eauto].
Qed.
Lemma text_ltb_total : forall a b, text_ltb a b = false -> a <> b -> text_ltb b a = true.
Proof.
  induction a as [|x a IH]; destruct b as [|y b]; cbn; intros H N; try discriminate; try reflexivity; try (contradiction N; reflexivity).
  destruct (Z.ltb_spec x y); [discriminate|]. cbn in H. destruct (Z.eqb_spec x y) as [->|]; [|assert (y <? x = true) as -> by lia; reflexivity].
  rewrite Z.ltb_irrefl, Z.eqb_refl. cbn in *. apply IH; congruence.
Qed.
