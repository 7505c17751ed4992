(** Everything which is parsed is regular. *)
From Coq Require Import Reals ZArith List Bool Lia ZifyBool String.
From Verif Require Import TextModel TextProofs PyonModel PyonSoundProofs MatchModel InputModel InputSpec.
Import ListNotations.
Open Scope Z_scope.

Lemma items_keep {A} (P : A -> Prop) (item : A -> list Z -> result (A * list Z)) close :
  (forall acc s a f, P acc -> item acc s = Ok (a, f) -> P a) -> forall n first acc s a f, P acc -> items item close n first acc s = Ok (a, f) -> P a.
Proof.
  intros K. induction n as [|n IH]; intros first acc s a f Pa H; [discriminate|]. cbn [items] in H. destruct s as [|c r]; [discriminate|]. destruct (Z.eqb c close); [apply ok_inj in H; injection H as <- _; exact Pa|].
  apply rbind_ok in H. destruct H as (s1 & _ & H). apply rbind_ok in H. destruct H as ([a1 f1] & H1 & H). exact (IH _ _ _ _ _ (K _ _ _ _ Pa H1) H).
Qed.
Lemma key_new k (l : list (list Z * node)) : has_key k l = false -> ~ In k (map fst l).
Proof.
  intros H I. apply in_map_iff in I. destruct I as (e & E & I). unfold has_key in H. assert (T : existsb (fun e => text_eqb k (fst e)) l = true); [|congruence].
  apply existsb_exists. exists e. split; [exact I|]. rewrite E. apply text_eqb_refl.
Qed.
Lemma nodup_snoc {A} (l : list A) a : NoDup l -> ~ In a l -> NoDup (l ++ [a]).
Proof.
  induction l as [|b l IH]; intros N I; cbn [app]; [constructor; [auto|constructor]|]. inversion N; subst. constructor; [|apply IH; [assumption|intros X; apply I; right; exact X]].
  rewrite in_app_iff. intros [X|[X|[]]]; [contradiction|]. apply I. left. auto.
Qed.
Definition regular_kw (l : list (list Z * node)) : Prop := NoDup (map fst l) /\ Forall (fun e => regular (snd e)) l.
Lemma kw_snoc l k v : regular_kw l -> has_key k l = false -> regular v -> regular_kw (l ++ [(k, v)]).
Proof. intros [N F] H R. split; [rewrite map_app; apply nodup_snoc; [exact N|apply key_new; exact H]|]. apply Forall_app. split; [exact F|]. repeat constructor. exact R. Qed.
Section Parse.
Variable erange : list Z -> bool.
Lemma expr_regular : forall fuel s v f, parseExpression erange fuel s = Ok (v, f) -> regular v.
Proof.
  induction fuel as [|fuel IH]; intros s v f H; [discriminate|]. cbn [parseExpression] in H. destruct (ws s) as [|c r]; [discriminate|]. destruct (Z.eqb c 91).
  { apply rbind_ok in H. destruct H as ([a f'] & H & E). apply ok_inj in E. cbn [fst snd] in E. injection E as <- _. constructor. refine (items_keep (Forall regular) _ _ _ _ _ _ _ _ _ _ H); [|constructor].
    intros acc s' a' f1 F Hi. apply rbind_ok in Hi. destruct Hi as ([v' f2] & He & Hi). apply ok_inj in Hi. injection Hi as <- _. apply Forall_app. split; [exact F|]. repeat constructor. exact (IH _ _ _ He). }
  destruct (Z.eqb c 123).
  { apply rbind_ok in H. destruct H as ([a f'] & H & E). apply ok_inj in E. cbn [fst snd] in E. injection E as <- _. assert (K : regular_kw a); [|destruct K; constructor; assumption]. refine (items_keep regular_kw _ _ _ _ _ _ _ _ _ _ H); [|split; constructor].
    intros acc s' a' f1 F Hi. unfold dict_item in Hi. destruct (parseString s') as [k|]; [|discriminate]. apply rbind_ok in Hi. destruct Hi as (k' & _ & Hi). destruct (eat 58 _) as [r'|]; [|discriminate]. apply rbind_ok in Hi. destruct Hi as ([v' f2] & He & Hi). cbn [fst snd] in Hi. destruct (has_key (fst k') acc) eqn:Hk; [discriminate|]. apply ok_inj in Hi. injection Hi as <- _. apply kw_snoc; [exact F|exact Hk|exact (IH _ _ _ He)]. }
  destruct (parseString (c :: r)) as [q|].
  { apply rbind_ok in H. destruct H as (k & _ & H). apply ok_inj in H. injection H as <- _. constructor. }
  destruct (parseIdentifier (c :: r)) as [[n rest]|].
  - destruct (text_eqb n text_True); [apply ok_inj in H; injection H as <- _; constructor|]. destruct (text_eqb n text_False); [apply ok_inj in H; injection H as <- _; constructor|]. destruct (text_eqb n text_None); [apply ok_inj in H; injection H as <- _; constructor|].
    destruct (eat 40 (ws rest)) as [r'|]; [|apply ok_inj in H; injection H as <- _; repeat constructor].
    apply rbind_ok in H. destruct H as ([a f'] & H & E). apply ok_inj in E. cbn [fst snd] in E. injection E as <- _. assert (K : Forall regular (fst a) /\ regular_kw (snd a)); [|destruct K as [? [? ?]]; constructor; assumption].
    refine (items_keep (fun a => Forall regular (fst a) /\ regular_kw (snd a)) _ _ _ _ _ _ _ _ _ _ H); [|repeat split; constructor].
    intros acc s' a' f1 [F K] Hi.
    assert (P : rbind (parseExpression erange fuel s') (fun v => match snd acc with [] => Ok ((fst acc ++ [fst v], []), snd v) | _ => Err end) = Ok (a', f1) -> Forall regular (fst a') /\ regular_kw (snd a')).
    { intros P. apply rbind_ok in P. destruct P as ([v' f2] & He & P). destruct (snd acc); [|discriminate]. apply ok_inj in P. injection P as <- _. cbn [fst snd]. split; [apply Forall_app; split; [exact F|]; repeat constructor; exact (IH _ _ _ He)|split; constructor]. }
    unfold argument in Hi. destruct (parseIdentifier s') as [n'|]; [|exact (P Hi)]. destruct (eat 61 _) as [r1|]; [|exact (P Hi)]. apply rbind_ok in Hi. destruct Hi as ([v' f2] & He & Hi). cbn [fst snd] in Hi. destruct (has_key (fst n') (snd acc)) eqn:Hk; [discriminate|]. apply ok_inj in Hi. injection Hi as <- _.
    cbn [fst snd]. split; [exact F|apply kw_snoc; [exact K|exact Hk|exact (IH _ _ _ He)]].
  - apply rbind_ok in H. destruct H as ([q|] & H & E); [|discriminate]. apply ok_inj in E. subst q. unfold parseNumeral in H. apply rbind_ok in H. destruct H as (fl & _ & H). apply rbind_ok in H. destruct H as (i & Hi & H). destruct (fst fl) as [t|]; [|discriminate].
    destruct (Nat.ltb _ _); [apply ok_inj in H; injection H as <- _; constructor|]. destruct (fst i) as [z|] eqn:Ez; [|discriminate]. apply ok_inj in H. injection H as <- _. constructor. unfold parseInt in Hi. destruct (strtol _ _) as [q|]; [|apply ok_inj in Hi; subst i; discriminate].
    destruct (_ && _) eqn:Er; [|discriminate]. apply ok_inj in Hi. subst i. cbn [fst] in Ez. injection Ez as <-. lia.
Qed.
Theorem parse_regular s v : parse erange s = Ok v -> regular v.
Proof. intros H. apply rbind_ok in H. destruct H as ([v' f] & H & E). destruct (ws _); [|discriminate]. apply ok_inj in E. cbn [fst] in E. subst v'. exact (expr_regular _ _ _ _ H). Qed.
End Parse.
