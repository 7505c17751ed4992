(** Expressions: what is written is read back. *)
From Coq Require Import ZArith List Bool Lia ZifyBool.
From Verif Require Import TextModel TextProofs StringsSpec StringsProofs PyonModel PyonSpec PyonLexProofs PyonNumProofs PyonFloatProofs.
Import ListNotations.
Open Scope Z_scope.

(** Values of lists, item by item. *)
Fixpoint fold_opt {A X} (step : A -> X -> option A) (acc : A) (l : list X) : option A :=
  match l with [] => Some acc | x :: l' => match step acc x with Some acc' => fold_opt step acc' l' | None => None end end.
Definition array_step (acc : list node) (r : raw) : option (list node) := option_map (fun v => acc ++ [v]) (value r).
Definition dict_step (acc : list (list Z * node)) (e : list Z * raw) : option (list (list Z * node)) :=
  match value (snd e) with Some v => if has_key (fst e) acc then None else Some (acc ++ [(fst e, v)]) | None => None end.
Definition arg_step (acc : list node * list (list Z * node)) (e : option (list Z) * raw) : option (list node * list (list Z * node)) :=
  match value (snd e) with
  | Some v => match fst e with
              | None => match snd acc with [] => Some (fst acc ++ [v], []) | _ => None end
              | Some n => if has_key n (snd acc) then None else Some (fst acc, snd acc ++ [(n, v)])
              end
  | None => None
  end.
Lemma array_fold l : forall acc, fold_opt array_step acc l = option_map (app acc) (all (map value l)).
Proof.
  induction l as [|r l IH]; intros acc; cbn [fold_opt map all]; [cbn; rewrite app_nil_r; reflexivity|]. unfold array_step at 1. destruct (value r) as [v|]; [|reflexivity]. cbn [option_map]. rewrite IH. destruct (all (map value l)) as [vs|]; [|reflexivity]. cbn [option_map]. rewrite <- app_assoc. reflexivity.
Qed.
Definition entries (l : list (list Z * raw)) : option (list (list Z * node)) := all (map (fun e => match e with (k, r) => option_map (pair k) (value r) end) l).
Definition args_of (l : list (option (list Z) * raw)) : option (list (option (list Z) * node)) := all (map (fun e => match e with (k, r) => option_map (pair k) (value r) end) l).
Lemma has_key_app k a b : has_key k (a ++ b) = has_key k a || has_key k b. Proof. unfold has_key. apply existsb_app. Qed.
(** [d] can be added to [acc] without repetitions. *)
Fixpoint fresh (acc : list (list Z * node)) (d : list (list Z * node)) : bool :=
  match d with [] => true | e :: d' => negb (has_key (fst e) acc) && fresh (acc ++ [e]) d' end.
Lemma existsb_fst k (d : list (list Z * node)) : existsb (text_eqb k) (map fst d) = has_key k d.
Proof. induction d as [|e d IH]; [reflexivity|]. cbn [map existsb]. unfold has_key in *. cbn [existsb]. rewrite IH. reflexivity. Qed.
Lemma fresh_distinct d : forall acc, fresh acc d = distinct (map fst d) && forallb (fun e => negb (has_key (fst e) acc)) d.
Proof.
  induction d as [|e d IH]; intros acc; [reflexivity|]. cbn [fresh map distinct forallb]. rewrite IH, existsb_fst.
  assert (E : forallb (fun e0 => negb (has_key (fst e0) (acc ++ [e]))) d = negb (has_key (fst e) d) && forallb (fun e0 => negb (has_key (fst e0) acc)) d).
  { clear. induction d as [|x d IH]; [reflexivity|]. cbn [forallb]. rewrite IH, has_key_app. change (has_key (fst e) (x :: d)) with (text_eqb (fst e) (fst x) || has_key (fst e) d). change (has_key (fst x) [e]) with (text_eqb (fst x) (fst e) || false). rewrite orb_false_r. replace (text_eqb (fst x) (fst e)) with (text_eqb (fst e) (fst x)).
    - destruct (has_key (fst x) acc), (text_eqb (fst e) (fst x)); cbn [orb negb andb]; rewrite ?andb_false_r; reflexivity.
    - destruct (text_eqb (fst e) (fst x)) eqn:E; symmetry; [apply text_eqb_eq in E; rewrite E; apply text_eqb_refl|]. apply text_eqb_neq. apply text_eqb_neq in E. congruence. }
  rewrite E. destruct (has_key (fst e) acc), (has_key (fst e) d), (distinct (map fst d)); cbn [negb andb]; try reflexivity; rewrite ?andb_false_r; reflexivity.
Qed.
Lemma fresh_nil d : fresh [] d = distinct (map fst d).
Proof. rewrite fresh_distinct. replace (forallb _ d) with true; [apply andb_true_r|]. symmetry. apply forallb_forall. intros e _. reflexivity. Qed.
Lemma dict_fold l : forall acc, fold_opt dict_step acc l = match entries l with Some d => if fresh acc d then Some (acc ++ d) else None | None => None end.
Proof.
  unfold entries. induction l as [|[k r] l IH]; intros acc; cbn [fold_opt map all]; [cbn; rewrite app_nil_r; reflexivity|]. unfold dict_step at 1. cbn [fst snd]. destruct (value r) as [v|]; [|reflexivity]. cbn [option_map]. destruct (has_key k acc) eqn:Ek.
  - destruct (all _) as [d|]; [|reflexivity]. cbn [option_map fresh fst]. rewrite Ek. reflexivity.
  - rewrite IH. destruct (all _) as [d|]; [|reflexivity]. cbn [option_map fresh fst]. rewrite Ek. cbn [negb andb]. destruct (fresh _ d); [|reflexivity]. rewrite <- app_assoc. reflexivity.
Qed.
Lemma kw_fold l : forall p acc, acc <> [] -> fold_opt arg_step (p, acc) l = match args_of l with Some d => match keywords d with Some kw => if fresh acc kw then Some (p, acc ++ kw) else None | None => None end | None => None end.
Proof.
  unfold args_of. induction l as [|[k r] l IH]; intros p acc N; cbn [fold_opt map all]; [cbn; rewrite app_nil_r; reflexivity|]. unfold arg_step at 1. cbn [fst snd]. destruct (value r) as [v|]; [|reflexivity]. cbn [option_map]. destruct k as [n|].
  - destruct (has_key n acc) eqn:Ek.
    + destruct (all _) as [d|]; [|reflexivity]. cbn [option_map keywords]. destruct (keywords d); [|reflexivity]. cbn [option_map fresh fst]. rewrite Ek. reflexivity.
    + rewrite IH by (intros E; apply app_eq_nil in E; destruct E; discriminate). destruct (all _) as [d|]; [|reflexivity]. cbn [option_map keywords]. destruct (keywords d) as [kw|]; [|reflexivity]. cbn [option_map fresh fst]. rewrite Ek. cbn [negb andb]. destruct (fresh _ kw); [|reflexivity]. rewrite <- app_assoc. reflexivity.
  - destruct acc; [contradiction N; reflexivity|]. destruct (all _) as [d|]; reflexivity.
Qed.
Lemma arg_fold l : forall p, fold_opt arg_step (p, []) l = match args_of l with Some d => option_map (fun q => (p ++ fst q, snd q)) (bind_args d) | None => None end.
Proof.
  unfold args_of. induction l as [|[k r] l IH]; intros p; cbn [fold_opt map all]; [cbn; rewrite app_nil_r; reflexivity|]. unfold arg_step at 1. cbn [fst snd]. destruct (value r) as [v|]; [|reflexivity]. cbn [option_map]. destruct k as [n|].
  - cbn [has_key existsb app]. rewrite kw_fold by discriminate. unfold args_of. destruct (all _) as [d|]; [|reflexivity]. cbn [option_map bind_args keywords]. destruct (keywords d) as [kw|]; [|reflexivity]. cbn [option_map].
    rewrite <- (fresh_nil ((n, v) :: kw)). cbn [fresh fst app]. change (has_key n []) with false. cbn [negb andb]. destruct (fresh [(n, v)] kw); [|reflexivity]. cbn [option_map fst snd]. rewrite app_nil_r. reflexivity.
  - rewrite IH. destruct (all _) as [d|]; [|reflexivity]. cbn [option_map bind_args]. destruct (bind_args d) as [q|]; [|reflexivity]. cbn [option_map fst snd]. rewrite <- app_assoc. reflexivity.
Qed.
Lemma array_value l : value (RArray l) = option_map NArray (fold_opt array_step [] l).
Proof. rewrite array_fold. cbn [value]. destruct (all (map value l)); reflexivity. Qed.
Lemma dict_value l : value (RDict l) = option_map NDict (fold_opt dict_step [] l).
Proof. rewrite dict_fold. cbn [value]. fold (entries l). destruct (entries l) as [d|]; [|reflexivity]. rewrite fresh_nil. destruct (distinct _); reflexivity. Qed.
Lemma class_value n l : value (RClass n l) = option_map (fun q => NClass n (fst q) (snd q)) (fold_opt arg_step ([], []) l).
Proof. rewrite arg_fold. cbn [value]. fold (args_of l). destruct (args_of l) as [d|]; [|reflexivity]. destruct (bind_args d) as [q|]; [|reflexivity]. destruct q. reflexivity. Qed.

(** What may follow an expression. *)
Definition closing (c : Z) : Prop := c = 44 \/ c = 93 \/ c = 125 \/ c = 41.
Definition ends (f : list Z) : Prop := (match f with [] => True | c :: _ => is_space c = true \/ c = 35 \/ closing c end) /\ (match ws f with [] => True | c :: _ => closing c end).
Lemma closing_plain c : closing c -> is_space c = false /\ c <> 35. Proof. unfold closing, is_space. lia. Qed.
Lemma gap_head g c f : gap g -> match g ++ c :: f with [] => True | x :: _ => is_space x = true \/ x = 35 \/ x = c end.
Proof. intros G. destruct G; cbn [app]; auto. Qed.
Lemma ends_gap g c f : gap g -> closing c -> ends (g ++ c :: f) /\ ws (g ++ c :: f) = c :: f.
Proof.
  intros G C. destruct (closing_plain c C) as [C1 C2]. assert (E : ws (g ++ c :: f) = c :: f) by (rewrite ws_gap by exact G; apply ws_none; auto). split; [|exact E]. split; [|rewrite E; exact C].
  pose proof (gap_head g c f G) as H. destruct (g ++ c :: f); [exact I|]. destruct H as [H|[H|H]]; auto. subst. auto.
Qed.
Lemma ends_last g : last_gap g -> ends g.
Proof.
  intros G. split; [|rewrite (ws_last g G); exact I]. destruct G as [G|(g' & t & -> & G & _)]; [destruct G; auto|]. pose proof (gap_head g' 35 t G) as H. destruct (g' ++ 35 :: t); [exact I|]. destruct H as [H|[H|H]]; auto.
Qed.
Lemma ends_brk f : ends f -> brk f.
Proof. intros [H _]. destruct f as [|c f]; [exact I|]. cbn. unfold closing, is_space in H. unfold is_name, is_alpha, is_digit. lia. Qed.
Lemma brk_name f : brk f -> no_head is_name f. Proof. destruct f; [auto|]. intros [H _]. exact H. Qed.
Lemma ends_no f c : ends f -> ~ closing c -> eat c (ws f) = None.
Proof. intros [_ H] N. apply eat_none. intros r E. rewrite E in H. contradiction. Qed.
(** Beginnings of expressions. *)
Definition starts (t : list Z) : Prop := match t with [] => False | c :: _ => is_space c = false /\ c <> 35 /\ ~ closing c end.
Lemma name_starts n : name n -> forall f, starts (n ++ f) /\ exists c r, n = c :: r /\ is_first c = true.
Proof. intros (c & r & -> & L & _) f. split; [|exists c, r; split; [reflexivity|apply first_iff; exact L]]. cbn. unfold letter in L. unfold closing, is_space. lia. Qed.
Lemma sign_starts sg k c t : sign_text sg k -> is_space c = false -> c <> 35 -> ~ closing c -> starts (sg ++ c :: t).
Proof. intros [[-> _]|[[-> _]|[-> _]]] H1 H2 H3; cbn; [auto| |]; unfold closing; repeat split; try discriminate; lia. Qed.
Definition numeric_start (c : Z) : Prop := 48 <= c <= 57 \/ c = 43 \/ c = 45 \/ c = 46.
Lemma number_head erange r t : clean_number erange r t -> exists c u, t = c :: u /\ numeric_start c.
Proof.
  assert (S : forall sg k c u, sign_text sg k -> numeric_start c -> exists c' u', sg ++ c :: u = c' :: u' /\ numeric_start c').
  { intros sg k c u [[-> _]|[[-> _]|[-> _]]] H; eexists; eexists; (split; [reflexivity|]); [exact H| |]; unfold numeric_start; auto. }
  unfold numeric_start in *. destruct r as [| |z|u| | | |]; cbn [clean_number]; try contradiction.
  - intros [H _]. destruct H as [sg k c ds n Sg W N R|sg k ds n Sg W R|sg k x ds n Sg X W N R|ds n W N R].
    + apply written_digits in W; [|lia]. apply Forall_inv in W. eapply S; eauto.
    + eapply S; eauto. lia.
    + eapply S; eauto. lia.
    + exists 48, (98 :: ds). split; [reflexivity|lia].
  - intros (-> & H & _). destruct H as [sg k a b e Sg A B N L E|sg k a e Sg A N L E].
    + destruct a as [|c a]; cbn [app]; [eapply S; eauto|]. apply Forall_inv in A. eapply S; eauto.
    + destruct a as [|c a]; [contradiction N; reflexivity|]. apply Forall_inv in A. cbn [app]. eapply S; eauto.
Qed.
Lemma writes_starts erange r t : writes (clean_number erange) r t -> starts t.
Proof.
  intros H. destruct H as [| | |z t H|u t H|s t (u & -> & _)|l t H|l t H|n N R|n g l t N R G H].
  1-3: cbn; unfold closing; repeat split; try discriminate; lia.
  1,2: destruct (number_head _ _ _ H) as (c & v & -> & X); cbn; unfold numeric_start in X; unfold closing, is_space; lia.
  1: cbn; unfold closing; repeat split; try discriminate; lia.
  1,2: destruct H; cbn; unfold closing; repeat split; try discriminate; lia.
  - destruct (name_starts n N []) as [X _]. rewrite app_nil_r in X. exact X.
  - apply name_starts. exact N.
Qed.
Lemma starts_ws t f : starts t -> ws (t ++ f) = t ++ f.
Proof. destruct t as [|c t]; [intros []|]. intros (H1 & H2 & _). cbn [app]. apply ws_none; auto. Qed.

(** Loops. *)
Section Loop.
Context {A X : Type} (item : A -> list Z -> result (A * list Z)) (W : X -> list Z -> Prop) (step : A -> X -> option A) (close : Z) (m : nat).
Hypothesis Hclose : close = 93 \/ close = 125 \/ close = 41.
Hypothesis Hstart : forall x t, W x t -> starts t.
Hypothesis Hitem : forall x t, W x t -> (length t < m)%nat -> forall acc f, ends f ->
  match step acc x with Some acc' => exists f', item acc (t ++ f) = Ok (acc', f') /\ ws f' = ws f | None => item acc (t ++ f) = Err end.
Lemma separated_starts xs t : separated W xs t -> starts t.
Proof. intros H. destruct H as [x t H|x t g g' xs ts H G G' S]; [eapply Hstart; eauto|]. apply Hstart in H. destruct t; [destruct H|exact H]. Qed.
Lemma loop_back xs t : separated W xs t -> forall n acc g f first g0, gap g -> gap g0 -> (length xs < n)%nat -> (length t < m)%nat ->
  items item close n first acc (if first : bool then t ++ g ++ close :: f else 44 :: g0 ++ t ++ g ++ close :: f) = match fold_opt step acc xs with Some a => Ok (a, f) | None => Err end.
Proof.
  assert (Hc : closing close) by (unfold closing; lia). assert (Begin : forall n acc (first : bool) g0 t tail, gap g0 -> starts t -> items item close (S n) first acc (if first then t ++ tail else 44 :: g0 ++ t ++ tail) = rbind (item acc (t ++ tail)) (fun q => items item close n false (fst q) (ws (snd q)))).
  { intros n acc first g0 t0 tail G0 St. destruct first.
    - destruct t0 as [|c u]; [destruct St|]. cbn [app items]. destruct St as (_ & _ & Nc). destruct (Z.eqb_spec c close) as [->|]; [contradiction|]. reflexivity.
    - cbn [items]. destruct (Z.eqb_spec 44 close) as [E|_]; [lia|]. cbn [Z.eqb Pos.eqb rbind]. rewrite ws_gap, (starts_ws t0 tail St) by exact G0. reflexivity. }
  intros H. induction H as [x t Wx|x t g1 g2 xs ts Wx G1 G2 Sp IH]; intros n acc g f first g0 G G0 L Lm; (destruct n as [|n]; [cbn in L; lia|]); pose proof (Hstart x t Wx) as St.
  - rewrite Begin by auto. destruct (ends_gap g close f G Hc) as [E1 E2]. pose proof (Hitem x t Wx Lm acc (g ++ close :: f) E1) as Hi. cbn [fold_opt]. destruct (step acc x) as [acc'|]; [|rewrite Hi; reflexivity]. destruct Hi as (f' & -> & Hf). cbn [rbind fst snd]. rewrite Hf, E2. destruct n as [|n]; [cbn in L; lia|]. cbn [items]. rewrite Z.eqb_refl. reflexivity.
  - rewrite !app_length in Lm. cbn [length] in Lm. rewrite app_length in Lm.
    replace (if first then (t ++ g1 ++ 44 :: g2 ++ ts) ++ g ++ close :: f else 44 :: g0 ++ (t ++ g1 ++ 44 :: g2 ++ ts) ++ g ++ close :: f) with (if first then t ++ (g1 ++ 44 :: g2 ++ ts ++ g ++ close :: f) else 44 :: g0 ++ t ++ (g1 ++ 44 :: g2 ++ ts ++ g ++ close :: f)) by (destruct first; rewrite <- !app_assoc; cbn [app]; rewrite <- !app_assoc; reflexivity).
    rewrite Begin by auto. destruct (ends_gap g1 44 (g2 ++ ts ++ g ++ close :: f) G1 ltac:(left; reflexivity)) as [E1 E2]. pose proof (Hitem x t Wx ltac:(lia) acc _ E1) as Hi. cbn [fold_opt]. destruct (step acc x) as [acc'|]; [|rewrite Hi; reflexivity]. destruct Hi as (f' & -> & Hf). cbn [rbind fst snd]. rewrite Hf, E2.
    exact (IH n acc' g f false g2 G G2 ltac:(cbn in L; lia) ltac:(lia)).
Qed.
Lemma separated_length xs t : separated W xs t -> (length xs <= length t)%nat.
Proof. intros H. induction H as [x t Wx|x t g1 g2 xs ts Wx G1 G2 Sp IH]; [apply Hstart in Wx; destruct t; [destruct Wx|cbn; lia]|]. rewrite !app_length. cbn [length]. rewrite app_length. lia. Qed.
Lemma enclosed_back a xs t n acc f : enclosed W a close xs t -> (length t <= n)%nat -> (length t <= m)%nat ->
  exists u, t = a :: u /\ items item close n true acc (ws (u ++ f)) = match fold_opt step acc xs with Some q => Ok (q, f) | None => Err end.
Proof.
  intros H L Lm. destruct H as [g G|xs g t g' G S G'].
  - exists (g ++ [close]). split; [reflexivity|]. rewrite <- app_assoc, ws_gap by exact G. cbn [app]. rewrite ws_none by (destruct Hclose as [-> |[-> | ->]]; (reflexivity || discriminate)). destruct n as [|n]; [cbn in L; lia|]. cbn [items fold_opt]. rewrite Z.eqb_refl. reflexivity.
  - exists (g ++ t ++ g' ++ [close]). split; [reflexivity|]. rewrite <- !app_assoc, ws_gap by exact G. rewrite (starts_ws t (g' ++ [close] ++ f) (separated_starts xs t S)). cbn [app]. cbn [length] in *. rewrite !app_length in *. cbn [length] in *. pose proof (separated_length xs t S). apply (loop_back xs t S n acc g' f true []); [exact G'|constructor|lia|lia].
Qed.
End Loop.
