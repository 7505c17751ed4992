(** Expressions: what is accepted has been written according to the grammar; parsing always ends. *)
From Coq Require Import ZArith List Bool Lia ZifyBool.
From Verif Require Import TextModel TextProofs TrjRecProofs StringsSpec StringsProofs PyonModel PyonSpec PyonLexProofs PyonNumProofs PyonFloatProofs PyonProofs.
Import ListNotations.
Open Scope Z_scope.

Lemma rbind_ok {A B} (x : result A) (f : A -> result B) b : rbind x f = Ok b -> exists a, x = Ok a /\ f a = Ok b.
Proof. destruct x as [a| |]; [|discriminate..]. exists a. auto. Qed.
Lemma ok_inj {A} (a b : A) : Ok a = Ok b -> a = b. Proof. intros H. exact (f_equal (fun r => match r with Ok x => x | _ => a end) H). Qed.
Lemma skipped_gap g f c r : skipped g f -> ws f = c :: r -> gap g.
Proof. intros [G|[-> _]]; [auto|discriminate]. Qed.
Lemma ws_gap_split f c r : ws f = c :: r -> exists g, gap g /\ f = g ++ c :: r.
Proof. intros E. destruct (ws_split f) as (g & H1 & H2). rewrite E in *. exists g. split; [|exact H1]. destruct H2 as [H2|[H2 _]]; [exact H2|discriminate]. Qed.

Section Sound.
Context {A X : Type} (item : A -> list Z -> result (A * list Z)) (W : X -> list Z -> Prop) (step : A -> X -> option A) (close : Z).
Hypothesis Hitem : forall acc s acc' f, ws s = s -> item acc s = Ok (acc', f) -> exists x t g, s = t ++ g ++ f /\ W x t /\ step acc x = Some acc' /\ skipped g f.
Lemma items_sound : forall n first acc s a f, ws s = s -> items item close n first acc s = Ok (a, f) ->
  (s = close :: f /\ a = acc) \/
  exists xs t g g0, gap g0 /\ gap g /\ separated W xs t /\ fold_opt step acc xs = Some a /\ s = if first : bool then t ++ g ++ close :: f else 44 :: g0 ++ t ++ g ++ close :: f.
Proof.
  induction n as [|n IH]; intros first acc s a f Es H; [discriminate|]. cbn [items] in H. destruct s as [|c r]; [discriminate|]. destruct (Z.eqb_spec c close) as [->|Nc].
  - apply ok_inj in H. injection H as -> ->. left. auto.
  - right. apply rbind_ok in H. destruct H as (s1 & H1 & H). apply rbind_ok in H. destruct H as ([acc' f1] & Hi & H). cbn [fst snd] in H.
    assert (S1 : ws s1 = s1 /\ exists g0, gap g0 /\ c :: r = if first then s1 else 44 :: g0 ++ s1).
    { destruct first; [apply ok_inj in H1; subst; split; [exact Es|exists []; split; [constructor|reflexivity]]|]. destruct (Z.eqb_spec c 44) as [->|]; [|discriminate]. apply ok_inj in H1. subst s1. split; [apply ws_idem|]. destruct (ws r) as [|d u] eqn:Ew.
      - exfalso. destruct (Hitem _ _ _ _ eq_refl Hi) as (x & t & g & E & _ & _ & _). symmetry in E. apply app_eq_nil in E. destruct E as [_ E]. apply app_eq_nil in E. destruct E as [_ ->]. destruct n; discriminate.
      - destruct (ws_gap_split r d u Ew) as (g & G & E). exists g. split; [exact G|]. rewrite E. reflexivity. }
    destruct S1 as [W1 (g0 & G0 & E0)]. destruct (Hitem _ _ _ _ W1 Hi) as (x & t & g & E & Wx & Sx & Sk).
    pose proof (IH false acc' (ws f1) a f (ws_idem f1) H) as Hn. destruct Hn as [[E1 ->]|(xs & t' & g' & g1 & G1 & G' & Sp & Fo & E1)].
    + destruct (ws_gap_split f1 _ _ E1) as (h & Gh & Ef). exists [x], t, (g ++ h), g0. split; [exact G0|]. split; [apply gap_app; [eapply skipped_gap; eauto|exact Gh]|]. split; [constructor; exact Wx|]. split; [cbn [fold_opt]; rewrite Sx; reflexivity|]. rewrite E0, E, Ef. destruct first; rewrite <- !app_assoc; reflexivity.
    + destruct (ws_gap_split f1 _ _ E1) as (h & Gh & Ef). exists (x :: xs), (t ++ (g ++ h) ++ 44 :: g1 ++ t'), g', g0. split; [exact G0|]. split; [exact G'|]. split; [constructor; auto; apply gap_app; [eapply skipped_gap; eauto|exact Gh]|]. split; [cbn [fold_opt]; rewrite Sx; exact Fo|]. rewrite E0, E, Ef. destruct first; rewrite <- !app_assoc; cbn [app]; rewrite <- !app_assoc; reflexivity.
Qed.
Lemma enclosed_sound a0 n acc r a f : items item close n true acc (ws r) = Ok (a, f) -> exists xs t, enclosed W a0 close xs t /\ a0 :: r = t ++ f /\ fold_opt step acc xs = Some a.
Proof.
  intros H. destruct (items_sound n true acc (ws r) a f (ws_idem r) H) as [[E ->]|(xs & t & g & g0 & _ & G & Sp & Fo & E)].
  - destruct (ws_gap_split r _ _ E) as (g & G & Er). exists [], (a0 :: g ++ [close]). split; [constructor; exact G|]. split; [|reflexivity]. rewrite Er. cbn [app]. rewrite <- app_assoc. reflexivity.
  - destruct (ws_split r) as (h & Er & Sk). rewrite E in Er, Sk. exists xs, (a0 :: h ++ t ++ g ++ [close]). split; [constructor; auto|]. { destruct Sk as [Sk|[Sk _]]; [exact Sk|]. exfalso. apply app_eq_nil in Sk. destruct Sk as [_ Sk]. apply app_eq_nil in Sk. destruct Sk. discriminate. }
    split; [|exact Fo]. rewrite Er. cbn [app]. rewrite <- !app_assoc. reflexivity.
Qed.
End Sound.

Section Any.
Variable erange : list Z -> bool.
Notation W := (writes (any_number erange)).
Definition expr_is (expr : list Z -> result (node * list Z)) : Prop := forall s v f, expr s = Ok (v, f) -> exists r t g, ws s = t ++ g ++ f /\ W r t /\ value r = Some v /\ skipped g f.
Lemma array_item_sound expr : expr_is expr -> forall acc s acc' f, ws s = s -> array_item expr acc s = Ok (acc', f) -> exists x t g, s = t ++ g ++ f /\ W x t /\ array_step acc x = Some acc' /\ skipped g f.
Proof.
  intros IH acc s acc' f Es H. apply rbind_ok in H. destruct H as ([v f'] & H & E). apply ok_inj in E. injection E as <- <-. destruct (IH _ _ _ H) as (r & t & g & E & Wr & V & Sk). exists r, t, g. rewrite <- Es. unfold array_step. rewrite V. auto.
Qed.
Lemma nonspace_split r s t g f : ws r = t ++ g ++ f -> ws s = 58 :: r \/ ws s = 61 :: r -> t <> [] -> exists h, r = h ++ t ++ g ++ f /\ gap h.
Proof.
  intros E _ N. destruct (ws_split r) as (h & Er & Sk). rewrite E in Er, Sk. exists h. split; [exact Er|]. destruct Sk as [Sk|[Sk _]]; [exact Sk|]. apply app_eq_nil in Sk. destruct Sk. contradiction.
Qed.
Lemma written_ne b ds n : written b ds n -> ds <> [] -> exists c r, ds = c :: r. Proof. intros _ N. destruct ds as [|c r]; [contradiction N; reflexivity|eauto]. Qed.
Lemma any_ne r t : any_number erange r t -> t <> [].
Proof.
  assert (N : forall sg (t : list Z), t <> [] -> sg ++ t <> []) by (intros [|] ? ? E; [contradiction|discriminate]).
  destruct r as [| |z|u| | | |]; cbn [any_number]; try contradiction.
  - intros [z' t' H|]; [|discriminate]. destruct H; try (apply N; discriminate). discriminate.
  - intros (-> & H & _). destruct H as [sg k m e Sg M E|sg k x m e Sg X M E]; apply N; [|discriminate]. destruct M as [(a & b & -> & _)|[_ M]]; [intros E0; apply app_eq_nil in E0; destruct E0 as [E0 _]; apply app_eq_nil in E0; destruct E0; discriminate|]. destruct m; [contradiction M; reflexivity|discriminate].
Qed.
Lemma writes_ne r t : W r t -> t <> [].
Proof.
  intros H. destruct H as [| | |z t H|u t H|s t (u & -> & _)|l t H|l t H|n (c & r & -> & _) R|n g l t (c & r & -> & _) R G H]; try discriminate; try (eapply any_ne; eauto; fail); destruct H; discriminate.
Qed.
Lemma dict_item_sound expr : expr_is expr -> forall acc s acc' f, ws s = s -> dict_item expr acc s = Ok (acc', f) -> exists x t g, s = t ++ g ++ f /\ entry W x t /\ dict_step acc x = Some acc' /\ skipped g f.
Proof.
  intros IH acc s acc' f Es H. unfold dict_item in H. destruct (parseString s) as [q|] eqn:Eq; [|discriminate]. destruct (quoted_sound s q Eq) as [_ Q]. apply rbind_ok in H. destruct H as ([k f1] & -> & H). destruct (Q k f1 eq_refl) as (t & Et & Qt). cbn [fst snd] in H.
  destruct (eat 58 (ws f1)) as [r|] eqn:E1; [|discriminate]. apply eat_some in E1. apply rbind_ok in H. destruct H as ([v f2] & He & H). cbn [fst snd] in H. destruct (has_key k acc) eqn:Hk; [discriminate|]. apply ok_inj in H. injection H as <- <-.
  destruct (IH _ _ _ He) as (x & u & g & E & Wx & V & Sk). destruct (ws_gap_split f1 _ _ E1) as (h & Gh & Ef). destruct (nonspace_split r f1 u g f2 E (or_introl E1) (writes_ne x u Wx)) as (h' & Er & Gh').
  exists (k, x), (t ++ h ++ 58 :: h' ++ u), g. split; [rewrite Et, Ef, Er; rewrite <- !app_assoc; cbn [app]; rewrite <- !app_assoc; reflexivity|]. split; [constructor; auto|]. split; [|exact Sk]. unfold dict_step. cbn [fst snd]. rewrite V, Hk. reflexivity.
Qed.
Lemma arg_item_sound expr : expr_is expr -> forall acc s acc' f, ws s = s -> argument expr acc s = Ok (acc', f) -> exists x t g, s = t ++ g ++ f /\ arg W x t /\ arg_step acc x = Some acc' /\ skipped g f.
Proof.
  intros IH acc s acc' f Es H.
  assert (P : rbind (expr s) (fun v => match snd acc with [] => Ok ((fst acc ++ [fst v], []), snd v) | _ => Err end) = Ok (acc', f) -> exists x t g, s = t ++ g ++ f /\ arg W x t /\ arg_step acc x = Some acc' /\ skipped g f).
  { intros P. apply rbind_ok in P. destruct P as ([v f'] & He & P). cbn [fst snd] in P. destruct (snd acc) eqn:Ea; [|discriminate]. apply ok_inj in P. injection P as <- <-. destruct (IH _ _ _ He) as (r & t & g & E & Wr & V & Sk). exists (None, r), t, g. rewrite <- Es. split; [exact E|]. split; [constructor; exact Wr|]. split; [|exact Sk]. unfold arg_step. cbn [fst snd]. rewrite V, Ea. reflexivity. }
  unfold argument in H. destruct (parseIdentifier s) as [[n f1]|] eqn:Ei; [|exact (P H)]. cbn [fst snd] in H. destruct (eat 61 (ws f1)) as [r|] eqn:E1; [|exact (P H)]. clear P. apply eat_some in E1. apply identifier_sound in Ei. destruct Ei as (Ei & Nn & _).
  apply rbind_ok in H. destruct H as ([v f2] & He & H). cbn [fst snd] in H. destruct (has_key n (snd acc)) eqn:Hk; [discriminate|]. apply ok_inj in H. injection H as <- <-.
  destruct (IH _ _ _ He) as (x & u & g & E & Wx & V & Sk). rewrite ws_idem in E. destruct (ws_gap_split f1 _ _ E1) as (h & Gh & Ef). destruct (nonspace_split r f1 u g f2 E (or_intror E1) (writes_ne x u Wx)) as (h' & Er & Gh').
  exists (Some n, x), (n ++ h ++ 61 :: h' ++ u), g. split; [rewrite Ei, Ef, Er; rewrite <- !app_assoc; cbn [app]; rewrite <- !app_assoc; reflexivity|]. split; [constructor; auto|]. split; [|exact Sk]. unfold arg_step. cbn [fst snd]. rewrite V, Hk. reflexivity.
Qed.
Lemma expr_sound : forall fuel, expr_is (parseExpression erange fuel).
Proof.
  induction fuel as [|fuel IH]; intros s v f H; [discriminate|]. cbn [parseExpression] in H. destruct (ws s) as [|c r] eqn:Ew; [discriminate|]. destruct (ws_head _ _ _ Ew) as [Hc _]. assert (S0 : forall h, skipped [] h) by (intros; left; constructor).
  destruct (Z.eqb_spec c 91) as [->|N91].
  { apply rbind_ok in H. destruct H as ([a f'] & H & E). apply ok_inj in E. cbn [fst snd] in E. injection E as <- <-. destruct (enclosed_sound _ _ _ 93 (array_item_sound _ IH) 91 fuel [] r a f' H) as (xs & t & En & E & Fo). exists (RArray xs), t, []. split; [exact E|]. split; [constructor; exact En|]. split; [rewrite array_value, Fo; reflexivity|apply S0]. }
  destruct (Z.eqb_spec c 123) as [->|N123].
  { apply rbind_ok in H. destruct H as ([a f'] & H & E). apply ok_inj in E. cbn [fst snd] in E. injection E as <- <-. destruct (enclosed_sound _ _ _ 125 (dict_item_sound _ IH) 123 fuel [] r a f' H) as (xs & t & En & E & Fo). exists (RDict xs), t, []. split; [exact E|]. split; [constructor; exact En|]. split; [rewrite dict_value, Fo; reflexivity|apply S0]. }
  destruct (parseString (c :: r)) as [q|] eqn:Eq.
  { destruct (quoted_sound _ q Eq) as [_ Q]. apply rbind_ok in H. destruct H as ([k f1] & -> & H). destruct (Q k f1 eq_refl) as (t & Et & Qt). apply ok_inj in H. cbn [fst snd] in H. injection H as <- <-. exists (RString k), t, []. split; [exact Et|]. split; [constructor; exact Qt|]. split; [reflexivity|apply S0]. }
  destruct (parseIdentifier (c :: r)) as [[n rest]|] eqn:Ei.
  - apply identifier_sound in Ei. destruct Ei as (Ei & Nn & _). rewrite Ei. destruct (text_eqb n text_True) eqn:T1.
    { apply text_eqb_eq in T1. apply ok_inj in H. injection H as <- <-. subst n. exists (RBool true), text_True, []. repeat split; auto; constructor. }
    destruct (text_eqb n text_False) eqn:T2.
    { apply text_eqb_eq in T2. apply ok_inj in H. injection H as <- <-. subst n. exists (RBool false), text_False, []. repeat split; auto; constructor. }
    destruct (text_eqb n text_None) eqn:T3.
    { apply text_eqb_eq in T3. apply ok_inj in H. injection H as <- <-. subst n. exists RNone, text_None, []. repeat split; auto; constructor. }
    assert (R : ~ reserved n) by (apply text_eqb_neq in T1, T2, T3; unfold reserved; tauto).
    destruct (eat 40 (ws rest)) as [r'|] eqn:E4.
    + apply eat_some in E4. apply rbind_ok in H. destruct H as ([a f'] & H & E). apply ok_inj in E. cbn [fst snd] in E. injection E as <- <-. destruct (enclosed_sound _ _ _ 41 (arg_item_sound _ IH) 40 fuel ([], []) r' a f' H) as (xs & t & En & E & Fo).
      destruct (ws_gap_split rest _ _ E4) as (h & Gh & Er). exists (RClass n xs), (n ++ h ++ t), []. split; [rewrite Er, E; rewrite <- !app_assoc; reflexivity|]. split; [constructor; auto|]. split; [rewrite class_value, Fo; reflexivity|apply S0].
    + apply ok_inj in H. injection H as <- <-. destruct (ws_split rest) as (h & Er & Sk). exists (RClass n []), n, h. split; [rewrite Er at 1; reflexivity|]. split; [constructor; auto|]. split; [reflexivity|exact Sk].
  - apply rbind_ok in H. destruct H as ([q|] & H & E); [|discriminate]. apply ok_inj in E. subst q. destruct (numeral_sound erange (c :: r) v f Hc H) as (x & t & E & An & V & K). exists x, t, []. split; [exact E|]. split; [destruct K as [[z ->]|[u ->]]; constructor; exact An|]. split; [exact V|apply S0].
Qed.
Lemma expr_consumes fuel s v f : parseExpression erange fuel s = Ok (v, f) -> (length f < length s)%nat.
Proof.
  intros H. destruct (expr_sound fuel s v f H) as (r & t & g & E & Wr & _). pose proof (ws_length s) as L. rewrite E, !app_length in L. pose proof (writes_ne r t Wr). destruct t; [contradiction|]. cbn [length] in L. lia.
Qed.

(** Enough fuel. *)
Lemma items_ext {A} (it1 it2 : A -> list Z -> result (A * list Z)) close m :
  (forall acc s, (length s < m)%nat -> it1 acc s = it2 acc s /\ it1 acc s <> OutOfFuel /\ forall a f, it1 acc s = Ok (a, f) -> (length f < length s)%nat) ->
  forall n n' first acc s, (length s < n)%nat -> (length s < n')%nat -> (length s < m)%nat -> items it1 close n first acc s = items it2 close n' first acc s /\ items it1 close n first acc s <> OutOfFuel.
Proof.
  intros Hi. induction n as [|n IH]; intros n' first acc s L L' Lm; [lia|]. destruct n' as [|n']; [lia|]. cbn [items]. destruct s as [|c r]; [split; [reflexivity|discriminate]|]. destruct (Z.eqb c close); [split; [reflexivity|discriminate]|].
  cbn [length] in *. assert (K : forall s1, (length s1 <= S (length r))%nat -> rbind (it1 acc s1) (fun q => items it1 close n false (fst q) (ws (snd q))) = rbind (it2 acc s1) (fun q => items it2 close n' false (fst q) (ws (snd q))) /\ rbind (it1 acc s1) (fun q => items it1 close n false (fst q) (ws (snd q))) <> OutOfFuel).
  { intros s1 L1. destruct (Hi acc s1 ltac:(lia)) as (E & N & C). rewrite <- E. destruct (it1 acc s1) as [[a f]| |]; cbn [rbind fst snd]; [|split; [reflexivity|discriminate]|contradiction N; reflexivity]. specialize (C a f eq_refl). pose proof (ws_length f). apply IH; lia. }
  destruct first; cbn [rbind]; [apply K; cbn [length]; lia|]. destruct (Z.eqb c 44); cbn [rbind]; [apply K; pose proof (ws_length r); lia|split; [reflexivity|discriminate]].
Qed.
Definition same (e1 e2 : list Z -> result (node * list Z)) (m : nat) : Prop :=
  forall s, (length s < m)%nat -> e1 s = e2 s /\ e1 s <> OutOfFuel /\ forall v f, e1 s = Ok (v, f) -> (length f < length s)%nat.
Lemma array_item_same e1 e2 m : same e1 e2 m -> forall acc s, (length s < m)%nat -> array_item e1 acc s = array_item e2 acc s /\ array_item e1 acc s <> OutOfFuel /\ forall a f, array_item e1 acc s = Ok (a, f) -> (length f < length s)%nat.
Proof.
  intros H acc s L. destruct (H s L) as (E & N & C). unfold array_item. rewrite <- E. destruct (e1 s) as [[v f]| |]; cbn [rbind]; [|repeat split; discriminate|contradiction N; reflexivity]. split; [reflexivity|]. split; [discriminate|]. intros a f' X. apply ok_inj in X. injection X as <- <-. exact (C v f eq_refl).
Qed.
Lemma dict_item_same e1 e2 m : same e1 e2 m -> forall acc s, (length s < m)%nat -> dict_item e1 acc s = dict_item e2 acc s /\ dict_item e1 acc s <> OutOfFuel /\ forall a f, dict_item e1 acc s = Ok (a, f) -> (length f < length s)%nat.
Proof.
  intros H acc s L. unfold dict_item. destruct (parseString s) as [q|] eqn:Eq; [|repeat split; discriminate]. destruct (quoted_sound s q Eq) as [Nq Q]. destruct q as [[k f1]| |]; cbn [rbind fst snd]; [|repeat split; discriminate|contradiction Nq; reflexivity]. destruct (Q k f1 eq_refl) as (t & Et & _). destruct (eat 58 (ws f1)) as [r|] eqn:E1; [|repeat split; discriminate]. apply eat_some in E1.
  assert (Lr : (length r < length s)%nat) by (pose proof (ws_length f1) as X; rewrite E1 in X; cbn [length] in X; apply (f_equal (@length Z)) in Et; rewrite app_length in Et; lia).
  destruct (H r ltac:(lia)) as (E & N & C). rewrite <- E. destruct (e1 r) as [[v f]| |]; cbn [rbind fst snd]; [|repeat split; discriminate|contradiction N; reflexivity]. split; [reflexivity|]. destruct (has_key k acc); [split; discriminate|]. split; [discriminate|]. intros a f' X. apply ok_inj in X. injection X as <- <-. specialize (C v f eq_refl). lia.
Qed.
Lemma arg_item_same e1 e2 m : same e1 e2 m -> forall acc s, (length s < m)%nat -> argument e1 acc s = argument e2 acc s /\ argument e1 acc s <> OutOfFuel /\ forall a f, argument e1 acc s = Ok (a, f) -> (length f < length s)%nat.
Proof.
  intros H acc s L. unfold argument.
  set (p1 := rbind (e1 s) (fun v => match snd acc with [] => Ok ((fst acc ++ [fst v], []), snd v) | _ => Err end) : result ((list node * list (list Z * node)) * list Z)).
  set (p2 := rbind (e2 s) (fun v => match snd acc with [] => Ok ((fst acc ++ [fst v], []), snd v) | _ => Err end) : result ((list node * list (list Z * node)) * list Z)).
  assert (P : p1 = p2 /\ p1 <> OutOfFuel /\ forall a f, p1 = Ok (a, f) -> (length f < length s)%nat).
  { unfold p1, p2. destruct (H s L) as (E & N & C). rewrite <- E. destruct (e1 s) as [[v f]| |]; cbn [rbind fst snd]; [|repeat split; discriminate|contradiction N; reflexivity]. destruct (snd acc); [|repeat split; discriminate]. split; [reflexivity|]. split; [discriminate|]. intros a f' X. apply ok_inj in X. injection X as <- <-. exact (C v f eq_refl). }
  clearbody p1 p2. destruct (parseIdentifier s) as [[n f1]|] eqn:Ei; [|exact P]. cbn [fst snd]. destruct (eat 61 (ws f1)) as [r|] eqn:E1; [|exact P]. apply eat_some in E1. apply identifier_sound in Ei. destruct Ei as (Ei & _ & _).
  assert (Lr : (length (ws r) < length s)%nat) by (pose proof (ws_length f1) as X; rewrite E1 in X; cbn [length] in X; apply (f_equal (@length Z)) in Ei; rewrite app_length in Ei; pose proof (ws_length r); lia).
  destruct (H (ws r) ltac:(lia)) as (E & N & C). rewrite <- E. destruct (e1 (ws r)) as [[v f]| |]; cbn [rbind fst snd]; [|repeat split; discriminate|contradiction N; reflexivity]. split; [reflexivity|]. destruct (has_key n (snd acc)); [split; discriminate|]. split; [discriminate|]. intros a f' X. apply ok_inj in X. injection X as <- <-. specialize (C v f eq_refl). lia.
Qed.
Lemma expr_fuel : forall fuel fuel' s, (length s < fuel)%nat -> (length s < fuel')%nat -> parseExpression erange fuel s = parseExpression erange fuel' s /\ parseExpression erange fuel s <> OutOfFuel.
Proof.
  induction fuel as [|fuel IH]; intros fuel' s L L'; [lia|]. destruct fuel' as [|fuel']; [lia|]. cbn [parseExpression]. destruct (ws s) as [|c r] eqn:Ew; [split; [reflexivity|discriminate]|]. pose proof (ws_length s) as Ls. rewrite Ew in Ls. cbn [length] in Ls.
  assert (Sm : same (parseExpression erange fuel) (parseExpression erange fuel') (length s)).
  { intros u Lu. destruct (IH fuel' u ltac:(lia) ltac:(lia)) as [E N]. split; [exact E|]. split; [exact N|]. intros v f. apply expr_consumes. }
  assert (K : forall B (x y : result B) (h : B -> result (node * list Z)), x = y /\ x <> OutOfFuel -> (forall b, h b <> OutOfFuel) -> rbind x h = rbind y h /\ rbind x h <> OutOfFuel) by (intros B x y h [-> N] Hh; split; [reflexivity|]; destruct y; [apply Hh|discriminate|contradiction N; reflexivity]).
  destruct (Z.eqb c 91); [apply K; [apply items_ext with (m := length s); [apply array_item_same; exact Sm|pose proof (ws_length r); lia..]|intros ? X; discriminate X]|]. destruct (Z.eqb c 123); [apply K; [apply items_ext with (m := length s); [apply dict_item_same; exact Sm|pose proof (ws_length r); lia..]|intros ? X; discriminate X]|].
  destruct (parseString (c :: r)) as [q|] eqn:Eq; [destruct (quoted_sound _ _ Eq) as [Nq _]; apply K; [split; [reflexivity|exact Nq]|intros ? X; discriminate X]|].
  destruct (parseIdentifier (c :: r)) as [[n rest]|] eqn:Ei.
  - apply identifier_sound in Ei. destruct Ei as (Ei & _ & _). destruct (text_eqb n text_True); [split; [reflexivity|discriminate]|]. destruct (text_eqb n text_False); [split; [reflexivity|discriminate]|]. destruct (text_eqb n text_None); [split; [reflexivity|discriminate]|]. destruct (eat 40 (ws rest)) as [r'|] eqn:E4; [|split; [reflexivity|discriminate]]. apply eat_some in E4.
    assert (Lr : (length (ws r') < length (c :: r))%nat) by (pose proof (ws_length rest) as X; rewrite E4 in X; cbn [length] in X; rewrite Ei, app_length; pose proof (ws_length r'); lia). cbn [length] in Lr. apply K; [apply items_ext with (m := length s); [apply arg_item_same; exact Sm|lia..]|intros ? X; discriminate X].
  - apply K; [split; [reflexivity|apply numeral_total]|]. intros [b|] X; discriminate X.
Qed.
Theorem parse_fuel fuel s : (length s < fuel)%nat -> parse_with erange fuel s = parse erange s /\ parse erange s <> OutOfFuel.
Proof.
  intros L. unfold parse, parse_with. destruct (expr_fuel fuel (2 * length s + 2) s L ltac:(lia)) as [E N]. rewrite E in N. rewrite E. split; [reflexivity|]. destruct (parseExpression erange (2 * length s + 2) s) as [q| |]; cbn [rbind]; [|intros X; discriminate X|contradiction N; reflexivity]. destruct (ws (snd q)); intros X; discriminate X.
Qed.
Theorem parse_sound fuel s v : parse_with erange fuel s = Ok v -> exists g r t g', s = g ++ t ++ g' /\ gap g /\ last_gap g' /\ W r t /\ value r = Some v.
Proof.
  intros H. apply rbind_ok in H. destruct H as ([v' f] & H & E). cbn [fst snd] in E. destruct (ws f) eqn:Ef; [|discriminate]. apply ok_inj in E. subst v'. destruct (expr_sound fuel s v f H) as (r & t & g & Es & Wr & V & Sk). destruct (ws_split s) as (h & Eh & Sh). rewrite Es in Eh, Sh.
  assert (Gh : gap h). { destruct Sh as [Sh|[Sh _]]; [exact Sh|]. apply app_eq_nil in Sh. destruct Sh as [Sh _]. destruct (writes_ne r t Wr Sh). }
  exists h, r, t, (g ++ f). split; [exact Eh|]. split; [exact Gh|]. split; [|auto]. destruct (ws_split f) as (h' & Ef' & Sf). rewrite Ef in Ef', Sf. rewrite app_nil_r in Ef'. subst h'. assert (Lf : last_gap f) by (destruct Sf as [Sf|[_ Sf]]; [left|]; auto). destruct Sk as [Sk|[-> Sk]]; [apply last_gap_app; auto|]. rewrite app_nil_r. exact Sk.
Qed.
End Any.
