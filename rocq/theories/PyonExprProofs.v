(** Expressions: what is written is read back. *)
From Coq Require Import ZArith List Bool Lia ZifyBool.
From Verif Require Import TextModel TextProofs TrjRecProofs StringsSpec StringsProofs PyonModel PyonSpec PyonLexProofs PyonNumProofs PyonFloatProofs PyonProofs.
Import ListNotations.
Open Scope Z_scope.

Section Back.
Variable erange : list Z -> bool.
Notation num := (clean_number erange).
Notation W := (writes num).
Lemma expr_gap fuel g s : gap g -> parseExpression erange fuel (g ++ s) = parseExpression erange fuel s.
Proof. intros G. destruct fuel; [reflexivity|]. cbn [parseExpression]. rewrite ws_gap by exact G. reflexivity. Qed.
Lemma entry_starts e t : entry W e t -> starts t.
Proof. intros [k q g g' r u (v & -> & _) _ _ _]. cbn. unfold closing. repeat split; try discriminate; lia. Qed.
Lemma arg_starts e t : arg W e t -> starts t.
Proof. intros [r u H|n g g' r u N _ _ _]; [eapply writes_starts; eauto|]. apply name_starts. exact N. Qed.
Definition expr_ok (fuel : nat) : Prop := forall r t, W r t -> (length t < fuel)%nat -> forall f, ends f ->
  match value r with Some v => exists f', parseExpression erange fuel (t ++ f) = Ok (v, f') /\ ws f' = ws f | None => parseExpression erange fuel (t ++ f) = Err end.
Lemma array_item_back fuel : expr_ok fuel -> forall r t, W r t -> (length t < fuel)%nat -> forall acc f, ends f ->
  match array_step acc r with Some acc' => exists f', array_item (parseExpression erange fuel) acc (t ++ f) = Ok (acc', f') /\ ws f' = ws f | None => array_item (parseExpression erange fuel) acc (t ++ f) = Err end.
Proof.
  intros IH r t H L acc f F. pose proof (IH r t H L f F) as E. unfold array_step, array_item. destruct (value r) as [v|]; cbn [option_map]; [|rewrite E; reflexivity]. destruct E as (f' & -> & E). exists f'. split; [reflexivity|exact E].
Qed.
Lemma dict_item_back fuel : expr_ok fuel -> forall e t, entry W e t -> (length t < fuel)%nat -> forall acc f, ends f ->
  match dict_step acc e with Some acc' => exists f', dict_item (parseExpression erange fuel) acc (t ++ f) = Ok (acc', f') /\ ws f' = ws f | None => dict_item (parseExpression erange fuel) acc (t ++ f) = Err end.
Proof.
  intros IH e t H L acc f F. destruct H as [k q g g' r u Q G G' H]. rewrite !app_length in L. cbn [length] in L. rewrite app_length in L. pose proof (IH r u H ltac:(lia) f F) as E. unfold dict_step, dict_item. cbn [fst snd].
  replace ((q ++ g ++ 58 :: g' ++ u) ++ f) with (q ++ (g ++ 58 :: (g' ++ (u ++ f)))) by (rewrite <- !app_assoc; cbn [app]; rewrite <- !app_assoc; reflexivity). rewrite (quoted_back _ _ _ Q). cbn [rbind fst snd]. rewrite ws_gap by exact G. rewrite ws_none by (reflexivity || discriminate). cbn [eat]. rewrite Z.eqb_refl, expr_gap by exact G'.
  destruct (value r) as [v|]; [|rewrite E; reflexivity]. destruct E as (f' & -> & E). cbn [rbind fst snd]. destruct (has_key k acc); [reflexivity|]. exists f'. split; [reflexivity|exact E].
Qed.
Lemma other_start c s : is_first c = false -> parseIdentifier (c :: s) = None. Proof. apply identifier_none. Qed.
Lemma not_keyword r t f n rest : W r t -> ends f -> parseIdentifier (t ++ f) = Some (n, rest) -> eat 61 (ws rest) = None.
Proof.
  intros H F. pose proof (brk_name _ (ends_brk f F)) as B. assert (N61 : ~ closing 61) by (unfold closing; lia). assert (K : forall x, name x -> parseIdentifier (x ++ f) = Some (n, rest) -> eat 61 (ws rest) = None).
  { intros x N E. rewrite (identifier_back x f N B) in E. apply some_inj in E. inversion E; subst. apply ends_no; auto. }
  destruct H as [| | |z t H|u t H|s t (u & -> & _)|l t H|l t H|m N R|m g l t N R G H].
  1-3: apply K; (eexists; eexists; split; [reflexivity|split; [unfold letter; lia|repeat constructor; unfold letter; lia]]).
  1,2: destruct (number_head _ _ _ H) as (c & v & -> & X); cbn [app]; rewrite identifier_none by (unfold numeric_start in X; unfold is_first, is_alpha; lia); discriminate.
  1: discriminate.
  1,2: destruct H; discriminate.
  - apply K. exact N.
  - assert (exists u, t = 40 :: u) as [u ->] by (destruct H; eexists; reflexivity). rewrite <- !app_assoc. cbn [app]. assert (B' : no_head is_name (g ++ 40 :: u ++ f)) by (destruct G as [|c g' C _|v g' _ _]; cbn; [reflexivity| |reflexivity]; unfold is_space in C; unfold is_name, is_alpha, is_digit; lia).
    rewrite (identifier_back m _ N B'). intros E. apply some_inj in E. inversion E; subst. rewrite ws_gap, ws_none by (exact G || reflexivity || discriminate). reflexivity.
Qed.
Lemma arg_item_back fuel : expr_ok fuel -> forall e t, arg W e t -> (length t < fuel)%nat -> forall acc f, ends f ->
  match arg_step acc e with Some acc' => exists f', argument (parseExpression erange fuel) acc (t ++ f) = Ok (acc', f') /\ ws f' = ws f | None => argument (parseExpression erange fuel) acc (t ++ f) = Err end.
Proof.
  intros IH e t H L acc f F. destruct H as [r t H|n g g' r u N G G' H].
  - pose proof (IH r t H L f F) as E. unfold arg_step, argument. cbn [fst snd].
    set (pos := rbind (parseExpression erange fuel (t ++ f)) (fun v => match snd acc with [] => Ok ((fst acc ++ [fst v], []), snd v) | _ => Err end) : result ((list node * list (list Z * node)) * list Z)).
    assert (P : match value r with Some v => match snd acc with [] => exists f', pos = Ok ((fst acc ++ [v], []), f') /\ ws f' = ws f | _ => pos = Err end | None => pos = Err end).
    { unfold pos. destruct (value r) as [v|]; [|rewrite E; reflexivity]. destruct E as (f' & -> & E). cbn [rbind fst snd]. destruct (snd acc); [|reflexivity]. exists f'. split; [reflexivity|exact E]. }
    destruct (parseIdentifier (t ++ f)) as [[n rest]|] eqn:Ei.
    + cbn [snd]. rewrite (not_keyword r t f n rest H F Ei). destruct (value r) as [v|]; [|exact P]. destruct (snd acc); exact P.
    + destruct (value r) as [v|]; [|exact P]. destruct (snd acc); exact P.
  - rewrite !app_length in L. cbn [length] in L. rewrite app_length in L. pose proof (IH r u H ltac:(lia) f F) as E. unfold arg_step, argument. cbn [fst snd].
    replace ((n ++ g ++ 61 :: g' ++ u) ++ f) with (n ++ (g ++ 61 :: (g' ++ (u ++ f)))) by (rewrite <- !app_assoc; cbn [app]; rewrite <- !app_assoc; reflexivity).
    assert (B' : no_head is_name (g ++ 61 :: g' ++ u ++ f)) by (destruct G as [|c g0 C _|v g0 _ _]; cbn; [reflexivity| |reflexivity]; unfold is_space in C; unfold is_name, is_alpha, is_digit; lia).
    rewrite (identifier_back n _ N B'). cbn [fst snd]. rewrite ws_gap by exact G. rewrite ws_none by (reflexivity || discriminate). cbn [eat]. rewrite Z.eqb_refl, ws_gap by exact G'. rewrite (starts_ws u f) by (eapply writes_starts; eauto).
    destruct (value r) as [v|]; [|rewrite E; reflexivity]. destruct E as (f' & -> & E). cbn [rbind fst snd]. destruct (has_key n (snd acc)); [reflexivity|]. exists f'. split; [reflexivity|exact E].
Qed.
Lemma plain_name n : name n -> ~ reserved n -> text_eqb n text_True = false /\ text_eqb n text_False = false /\ text_eqb n text_None = false.
Proof. intros _ R. unfold reserved in R. repeat split; apply text_eqb_neq; tauto. Qed.
Lemma name_first n : name n -> exists c r, n = c :: r /\ is_first c = true /\ c <> 91 /\ c <> 123 /\ c <> 34.
Proof. intros (c & r & -> & L & _). exists c, r. split; [reflexivity|]. split; [apply first_iff; exact L|]. unfold letter in L. lia. Qed.
Lemma expr_back : forall fuel, expr_ok fuel.
Proof.
  induction fuel as [|fuel IH]; intros r t H L f F; [lia|]. pose proof (writes_starts _ _ _ H) as St. pose proof (starts_ws t f St) as Ew. pose proof (ends_brk f F) as B.
  destruct H as [| | |z t H|u t H|s t Q|l t H|l t H|n N R|n g l t N R G H].
  - exists f. split; [|reflexivity]. cbn [parseExpression]. rewrite Ew. cbn [app text_None Z.eqb Pos.eqb]. rewrite parseString_none by discriminate. change (78 :: 111 :: 110 :: 101 :: f) with (text_None ++ f). rewrite identifier_back; [reflexivity| |exact (brk_name f B)]. eexists; eexists; split; [reflexivity|split; [unfold letter; lia|repeat constructor; unfold letter; lia]].
  - exists f. split; [|reflexivity]. cbn [parseExpression]. rewrite Ew. cbn [app text_True Z.eqb Pos.eqb]. rewrite parseString_none by discriminate. change (84 :: 114 :: 117 :: 101 :: f) with (text_True ++ f). rewrite identifier_back; [reflexivity| |exact (brk_name f B)]. eexists; eexists; split; [reflexivity|split; [unfold letter; lia|repeat constructor; unfold letter; lia]].
  - exists f. split; [|reflexivity]. cbn [parseExpression]. rewrite Ew. cbn [app text_False Z.eqb Pos.eqb]. rewrite parseString_none by discriminate. change (70 :: 97 :: 108 :: 115 :: 101 :: f) with (text_False ++ f). rewrite identifier_back; [reflexivity| |exact (brk_name f B)]. eexists; eexists; split; [reflexivity|split; [unfold letter; lia|repeat constructor; unfold letter; lia]].
  - pose proof (numeral_back erange _ t f _ H B eq_refl) as E. exists f. split; [|reflexivity]. destruct (number_head _ _ _ H) as (c & v & -> & X). cbn [parseExpression]. rewrite Ew. cbn [app] in *. unfold numeric_start in X. destruct (Z.eqb_spec c 91); [lia|]. destruct (Z.eqb_spec c 123); [lia|]. rewrite parseString_none, identifier_none by (unfold is_first, is_alpha; lia). rewrite E. reflexivity.
  - pose proof (numeral_back erange _ t f _ H B eq_refl) as E. exists f. split; [|reflexivity]. destruct (number_head _ _ _ H) as (c & v & -> & X). cbn [parseExpression]. rewrite Ew. cbn [app] in *. unfold numeric_start in X. destruct (Z.eqb_spec c 91); [lia|]. destruct (Z.eqb_spec c 123); [lia|]. rewrite parseString_none, identifier_none by (unfold is_first, is_alpha; lia). rewrite E. reflexivity.
  - exists f. split; [|reflexivity]. cbn [parseExpression]. rewrite Ew. pose proof (quoted_back s t f Q) as E. destruct Q as (u & -> & _). cbn [app] in *. cbn [Z.eqb Pos.eqb]. rewrite E. reflexivity.
  - rewrite array_value. destruct (enclosed_back (array_item (parseExpression erange fuel)) W array_step 93 fuel ltac:(auto) (writes_starts erange) (array_item_back fuel IH) 91 l t fuel [] f H ltac:(lia) ltac:(lia)) as (u & -> & E). cbn [parseExpression]. rewrite Ew. cbn [app]. rewrite Z.eqb_refl, E. destruct (fold_opt array_step [] l) as [q|]; cbn [rbind option_map fst snd]; [exists f; auto|reflexivity].
  - rewrite dict_value. destruct (enclosed_back (dict_item (parseExpression erange fuel)) (entry W) dict_step 125 fuel ltac:(auto) entry_starts (dict_item_back fuel IH) 123 l t fuel [] f H ltac:(lia) ltac:(lia)) as (u & -> & E). cbn [parseExpression]. rewrite Ew. cbn [app Z.eqb Pos.eqb]. rewrite E. destruct (fold_opt dict_step [] l) as [q|]; cbn [rbind option_map fst snd]; [exists f; auto|reflexivity].
  - cbn [value map all bind_args keywords distinct option_map fst snd]. exists (ws f). split; [|apply ws_idem]. cbn [parseExpression]. rewrite Ew. destruct (plain_name n N R) as (E1 & E2 & E3). pose proof (identifier_back n f N (brk_name f B)) as Ei. destruct (name_first n N) as (c & r & E & C1 & C2 & C3 & C4). rewrite E in Ei |- *. cbn [app] in Ei |- *. destruct (Z.eqb_spec c 91); [lia|]. destruct (Z.eqb_spec c 123); [lia|]. rewrite parseString_none, Ei by lia. rewrite <- E, E1, E2, E3. rewrite ends_no; [reflexivity|exact F|unfold closing; lia].
  - rewrite class_value. rewrite !app_length in L. destruct (enclosed_back (argument (parseExpression erange fuel)) (arg W) arg_step 41 fuel ltac:(auto) arg_starts (arg_item_back fuel IH) 40 l t fuel ([], []) f H ltac:(lia) ltac:(lia)) as (u & -> & E). cbn [parseExpression]. rewrite Ew. rewrite <- !app_assoc. cbn [app].
    assert (B' : no_head is_name (g ++ 40 :: u ++ f)) by (destruct G as [|c g' C _|v g' _ _]; cbn; [reflexivity| |reflexivity]; unfold is_space in C; unfold is_name, is_alpha, is_digit; lia).
    destruct (plain_name n N R) as (E1 & E2 & E3). pose proof (identifier_back n _ N B') as Ei. destruct (name_first n N) as (c & r & En & C1 & C2 & C3 & C4). rewrite En in Ei |- *. cbn [app] in Ei |- *. destruct (Z.eqb_spec c 91); [lia|]. destruct (Z.eqb_spec c 123); [lia|]. rewrite parseString_none, Ei by lia. rewrite <- En, E1, E2, E3. rewrite ws_gap, ws_none by (exact G || reflexivity || discriminate). cbn [eat]. rewrite Z.eqb_refl, E. destruct (fold_opt arg_step ([], []) l) as [q|]; cbn [rbind option_map fst snd]; [exists f; auto|reflexivity].
Qed.
Theorem parse_back fuel r t g g' : W r t -> gap g -> last_gap g' -> (length t < fuel)%nat ->
  parse_with erange fuel (g ++ t ++ g') = match value r with Some v => Ok v | None => Err end.
Proof.
  intros H G G' L. unfold parse_with. rewrite expr_gap by exact G. pose proof (expr_back fuel r t H L g' (ends_last g' G')) as E. destruct (value r) as [v|]; [|rewrite E; reflexivity]. destruct E as (f' & -> & E). cbn [rbind fst snd]. rewrite E, ws_last by exact G'. reflexivity.
Qed.
End Back.
