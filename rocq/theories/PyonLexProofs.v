(** Tokens: gaps, names, strings and numbers. *)
From Coq Require Import ZArith List Bool Lia ZifyBool.
From Verif Require Import TextModel TextProofs StringsSpec PyonModel PyonSpec.
Import ListNotations.
Open Scope Z_scope.

(** Gaps. *)
Lemma ws_comment t g : Forall (fun c => c <> newline) t -> ws_from true (t ++ newline :: g) = ws_from false g.
Proof. induction 1 as [|c t H _ IH]; [reflexivity|]. cbn [app ws_from]. apply Z.eqb_neq in H. rewrite H. exact IH. Qed.
Lemma ws_comment_end t : Forall (fun c => c <> newline) t -> ws_from true t = [].
Proof. induction 1 as [|c t H _ IH]; [reflexivity|]. cbn [ws_from]. apply Z.eqb_neq in H. rewrite H. exact IH. Qed.
Lemma ws_gap g s : gap g -> ws (g ++ s) = ws s.
Proof.
  unfold ws. induction 1 as [|c g H _ IH|t g H _ IH]; [reflexivity| |].
  - cbn [app ws_from]. rewrite H. exact IH.
  - cbn [app ws_from]. rewrite <- app_assoc. cbn [app]. replace (is_space 35) with false by reflexivity. cbn [Z.eqb Pos.eqb]. rewrite ws_comment by exact H. exact IH.
Qed.
Lemma ws_last g : last_gap g -> ws g = [].
Proof.
  intros [H|(g' & t & -> & G & T)]; [rewrite <- (app_nil_r g), ws_gap by exact H; reflexivity|]. rewrite ws_gap by exact G. unfold ws. cbn [ws_from]. replace (is_space 35) with false by reflexivity. cbn [Z.eqb Pos.eqb]. apply ws_comment_end. exact T.
Qed.
Lemma gap_app a b : gap a -> gap b -> gap (a ++ b).
Proof. intros A B. induction A as [|c g H _ IH|t g H _ IH]; [exact B|constructor; auto|]. cbn [app]. rewrite <- app_assoc. cbn [app]. apply G_comment; auto. Qed.
Lemma last_gap_app a b : gap a -> last_gap b -> last_gap (a ++ b).
Proof. intros A [B|(g & t & -> & G & T)]; [left; apply gap_app; auto|]. right. exists (a ++ g), t. split; [apply app_assoc|]. split; [apply gap_app; auto|exact T]. Qed.
Definition skipped (g rest : list Z) : Prop := gap g \/ (rest = [] /\ last_gap g).
Lemma ws_split_both s : (exists g, s = g ++ ws_from false s /\ skipped g (ws_from false s)) /\
  (forall t, Forall (fun c => c <> newline) t -> exists g, 35 :: t ++ s = g ++ ws_from true s /\ skipped g (ws_from true s)).
Proof.
  induction s as [|c s [(g & E & S) IH]]; split.
  - exists []. split; [reflexivity|left; constructor].
  - intros t T. exists (35 :: t). cbn [ws_from]. rewrite !app_nil_r. split; [reflexivity|]. right. split; [reflexivity|]. right. exists [], t. split; [reflexivity|]. split; [constructor|exact T].
  - cbn [ws_from]. destruct (is_space c) eqn:Ec.
    + exists (c :: g). split; [cbn [app]; rewrite <- E; reflexivity|]. destruct S as [S|[S1 S2]]; [left; constructor; auto|right; split; [exact S1|]]. apply (last_gap_app [c] g); [constructor; [exact Ec|constructor]|exact S2].
    + destruct (Z.eqb_spec c 35) as [->|N]; [|exists []; split; [reflexivity|left; constructor]]. destruct (IH [] (Forall_nil _)) as (g' & E' & S'). exists g'. split; [exact E'|exact S'].
  - intros t T. cbn [ws_from]. destruct (Z.eqb_spec c newline) as [->|N]; cbn [negb].
    + exists (35 :: t ++ newline :: g). split; [cbn [app]; rewrite <- app_assoc; cbn [app]; rewrite <- E; reflexivity|]. destruct S as [S|[S1 S2]]; [left; apply G_comment; auto|right; split; [exact S1|]].
      replace (35 :: t ++ newline :: g) with ((35 :: t ++ [newline]) ++ g) by (cbn [app]; rewrite <- app_assoc; reflexivity). apply last_gap_app; [apply (G_comment t []); [exact T|constructor]|exact S2].
    + destruct (IH (t ++ [c])) as (g' & E' & S'); [apply Forall_app; split; [exact T|constructor; [exact N|constructor]]|]. exists g'. rewrite <- app_assoc in E'. split; [exact E'|exact S'].
Qed.
Lemma ws_split s : exists g, s = g ++ ws s /\ skipped g (ws s).
Proof. apply ws_split_both. Qed.
Lemma ws_head_from b s c r : ws_from b s = c :: r -> is_space c = false /\ c <> 35.
Proof.
  revert b. induction s as [|x s IH]; intros b H; cbn [ws_from] in H; [discriminate|]. destruct b; [eapply IH; exact H|]. destruct (is_space x) eqn:Ex; [eapply IH; exact H|]. destruct (Z.eqb_spec x 35); [eapply IH; exact H|]. injection H as <- <-. auto.
Qed.
Lemma ws_head s c r : ws s = c :: r -> is_space c = false /\ c <> 35. Proof. apply ws_head_from. Qed.
Lemma ws_none c r : is_space c = false -> c <> 35 -> ws (c :: r) = c :: r.
Proof. intros H N. unfold ws. cbn [ws_from]. rewrite H. apply Z.eqb_neq in N. rewrite N. reflexivity. Qed.
Lemma ws_idem s : ws (ws s) = ws s.
Proof. destruct (ws s) as [|c r] eqn:E; [reflexivity|]. destruct (ws_head s c r E). apply ws_none; auto. Qed.
Lemma ws_length s : (length (ws s) <= length s)%nat.
Proof. destruct (ws_split s) as (g & E & _). rewrite E at 2. rewrite app_length. lia. Qed.

(** Runs of characters. *)
Definition no_head (p : Z -> bool) (f : list Z) : Prop := match f with [] => True | c :: _ => p c = false end.
Lemma span_app p a f : Forall (fun c => p c = true) a -> no_head p f -> span p (a ++ f) = (a, f).
Proof. intros A F. induction A as [|c a H _ IH]; cbn [app span]; [destruct f as [|c f]; [reflexivity|cbn in *; rewrite F; reflexivity]|]. rewrite H, IH. reflexivity. Qed.
Lemma span_split p s : s = fst (span p s) ++ snd (span p s) /\ Forall (fun c => p c = true) (fst (span p s)) /\ no_head p (snd (span p s)).
Proof.
  induction s as [|c s (E & F & N)]; [repeat split; constructor|]. cbn [span]. destruct (p c) eqn:Ec; cbn [fst snd app].
  - split; [rewrite <- E; reflexivity|]. split; [constructor; auto|exact N].
  - split; [reflexivity|]. split; [constructor|exact Ec].
Qed.

(** Names. *)
Lemma first_iff c : is_first c = true <-> letter c. Proof. unfold is_first, is_alpha, letter. lia. Qed.
Lemma name_iff c : is_name c = true <-> letter c \/ 48 <= c <= 57. Proof. unfold is_name, is_alpha, is_digit, letter. lia. Qed.
Lemma identifier_back n f : name n -> no_head is_name f -> parseIdentifier (n ++ f) = Some (n, f).
Proof.
  intros (c & r & -> & L & R) F. cbn [app parseIdentifier]. apply first_iff in L. rewrite L, span_app; [reflexivity| |exact F]. eapply Forall_impl; [|exact R]. intros x X. apply name_iff. exact X.
Qed.
Lemma identifier_sound s n f : parseIdentifier s = Some (n, f) -> s = n ++ f /\ name n /\ no_head is_name f.
Proof.
  destruct s as [|c r]; [discriminate|]. cbn [parseIdentifier]. destruct (is_first c) eqn:E; [|discriminate]. intros H. injection H as <- <-. destruct (span_split is_name r) as (Es & F & N). split; [cbn [app]; rewrite <- Es; reflexivity|]. split; [|exact N].
  exists c, (fst (span is_name r)). split; [reflexivity|]. split; [apply first_iff; exact E|]. eapply Forall_impl; [|exact F]. intros x X. apply name_iff. exact X.
Qed.
Lemma identifier_none c r : is_first c = false -> parseIdentifier (c :: r) = None. Proof. intros H. cbn. rewrite H. reflexivity. Qed.

(** Strings. *)
Lemma string_back s u f : escaped s u -> string_rest (u ++ 34 :: f) = Ok (s, f).
Proof.
  induction 1 as [|c s t N1 N2 _ IH|s t _ IH|s t _ IH|s t _ IH|s t _ IH]; [reflexivity| | | | |].
  - cbn [app string_rest]. apply Z.eqb_neq in N1, N2. rewrite N1, N2, IH. reflexivity.
  - cbn [app string_rest Z.eqb Pos.eqb]. rewrite IH. reflexivity.
  - cbn [app string_rest Z.eqb Pos.eqb]. rewrite IH. reflexivity.
  - cbn [app string_rest Z.eqb Pos.eqb]. rewrite IH. reflexivity.
  - cbn [app string_rest Z.eqb Pos.eqb]. rewrite IH. reflexivity.
Qed.
Lemma string_sound : forall n t, (length t <= n)%nat -> string_rest t <> OutOfFuel /\ forall s f, string_rest t = Ok (s, f) -> exists u, t = u ++ 34 :: f /\ escaped s u.
Proof.
  induction n as [|n IH]; intros t L; [destruct t; [split; discriminate|cbn in L; lia]|]. destruct t as [|c r]; [split; discriminate|]. cbn [length] in L. cbn [string_rest]. destruct (Z.eqb_spec c 34) as [->|N1].
  { split; [discriminate|]. intros s f E. injection E as <- <-. exists []. split; [reflexivity|constructor]. }
  destruct (Z.eqb_spec c 92) as [->|N2].
  - destruct r as [|e r]; [split; discriminate|]. cbn [length] in L. destruct (IH r ltac:(lia)) as [T S].
    assert (G : forall x, (exists y, forall s t, escaped s t -> escaped (x :: s) (92 :: y :: t) /\ y = e) -> rbind (string_rest r) (fun q => Ok (x :: fst q, snd q)) <> OutOfFuel /\
      forall s f, rbind (string_rest r) (fun q => Ok (x :: fst q, snd q)) = Ok (s, f) -> exists u, 92 :: e :: r = u ++ 34 :: f /\ escaped s u).
    { intros x (y & X). destruct (string_rest r) as [[a b]| |]; cbn [rbind fst snd]; split; try discriminate; try contradiction. intros s f E. injection E as <- <-. destruct (S a b eq_refl) as (u & -> & Es). destruct (X a u Es) as [X1 X2]. rewrite X2 in X1. exists (92 :: e :: u). split; [reflexivity|exact X1]. }
    cbv zeta. destruct (Z.eqb_spec e 92) as [->|]; [apply G; exists 92; intros; split; [apply Es_backslash; auto|reflexivity]|]. destruct (Z.eqb_spec e 34) as [->|]; [apply G; exists 34; intros; split; [apply Es_quote; auto|reflexivity]|].
    destruct (Z.eqb_spec e 110) as [->|]; [apply G; exists 110; intros; split; [apply Es_newline; auto|reflexivity]|]. destruct (Z.eqb_spec e 116) as [->|]; [apply G; exists 116; intros; split; [apply Es_tab; auto|reflexivity]|]. split; discriminate.
  - destruct (IH r ltac:(lia)) as [T S]. destruct (string_rest r) as [[a b]| |]; cbn [rbind fst snd]; split; try discriminate; try contradiction. intros s f E. injection E as <- <-. destruct (S a b eq_refl) as (u & -> & Es). exists (c :: u). split; [reflexivity|apply Es_plain; auto].
Qed.
Lemma quoted_back s q f : quoted s q -> parseString (q ++ f) = Some (Ok (s, f)).
Proof. intros (u & -> & E). cbn [app parseString]. rewrite <- app_assoc. cbn [app]. unfold parseString. cbn [eat Z.eqb Pos.eqb]. rewrite (string_back s u f E). reflexivity. Qed.
Lemma eat_some c s r : eat c s = Some r <-> s = c :: r.
Proof. destruct s as [|x s]; cbn [eat]; [split; discriminate|]. destruct (Z.eqb_spec x c) as [->|N]; split; intros H; try discriminate; try (injection H as <-; reflexivity). injection H as H _. contradiction. Qed.
Lemma eat_none c s : eat c s = None <-> forall r, s <> c :: r.
Proof. destruct (eat c s) as [r|] eqn:E; [apply eat_some in E; split; [discriminate|]; intros H; contradiction (H r E)|]. split; [|reflexivity]. intros _ r H. apply eat_some in H. congruence. Qed.
Lemma parseString_cases s : match parseString s with None => forall r, s <> 34 :: r | Some q => exists r, s = 34 :: r /\ q = string_rest r end.
Proof. unfold parseString. destruct (eat 34 s) as [r|] eqn:E; [apply eat_some in E; exists r; auto|apply eat_none; exact E]. Qed.
Lemma parseString_none c r : c <> 34 -> parseString (c :: r) = None.
Proof. intros N. pose proof (parseString_cases (c :: r)) as H. destruct (parseString (c :: r)); [|reflexivity]. destruct H as (x & E & _). injection E as E _. contradiction. Qed.
Lemma quoted_sound s q : parseString s = Some q -> q <> OutOfFuel /\ forall a f, q = Ok (a, f) -> exists t, s = t ++ f /\ quoted a t.
Proof.
  intros H. pose proof (parseString_cases s) as X. rewrite H in X. destruct X as (r & -> & ->). destruct (string_sound (length r) r (Nat.le_refl _)) as [T S]. split; [exact T|]. intros a f E. destruct (S a f E) as (u & -> & Es). exists (34 :: u ++ [34]). split; [cbn [app]; rewrite <- app_assoc; reflexivity|]. exists u. auto.
Qed.
