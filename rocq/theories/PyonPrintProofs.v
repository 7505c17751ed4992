(** Canonical texts are texts of the grammar. *)
From Coq Require Import Decimal DecimalFacts DecimalN ZArith List Bool Lia ZifyBool.
From Verif Require Import TextModel TextProofs TrjRecProofs StringsSpec StringsProofs PyonModel PyonSpec PyonLexProofs PyonNumProofs PyonFloatProofs PyonProofs PyonExprProofs PyonSoundProofs PyonPrintSpec.
Import ListNotations.
Open Scope Z_scope.

Section Rect.
Variable P : node -> Prop.
Hypothesis Hnone : P NNone.
Hypothesis Hbool : forall b, P (NBool b).
Hypothesis Hint : forall z, P (NInt z).
Hypothesis Hfloat : forall t, P (NFloat t).
Hypothesis Hstring : forall s, P (NString s).
Hypothesis Harray : forall l, Forall P l -> P (NArray l).
Hypothesis Hdict : forall l, Forall P (map snd l) -> P (NDict l).
Hypothesis Hclass : forall n p k, Forall P p -> Forall P (map snd k) -> P (NClass n p k).
Fixpoint node_all (v : node) : P v :=
  match v with
  | NNone => Hnone | NBool b => Hbool b | NInt z => Hint z | NFloat t => Hfloat t | NString s => Hstring s
  | NArray l => Harray l ((fix go l : Forall P l := match l with [] => Forall_nil P | v :: l' => Forall_cons v (node_all v) (go l') end) l)
  | NDict l => Hdict l ((fix go l : Forall P (map snd l) := match l with [] => Forall_nil P | e :: l' => Forall_cons (snd e) (node_all (snd e)) (go l') end) l)
  | NClass n p k => Hclass n p k ((fix go l : Forall P l := match l with [] => Forall_nil P | v :: l' => Forall_cons v (node_all v) (go l') end) p)
                      ((fix go l : Forall P (map snd l) := match l with [] => Forall_nil P | e :: l' => Forall_cons (snd e) (node_all (snd e)) (go l') end) k)
  end.
End Rect.

Fixpoint as_raw (v : node) : raw :=
  match v with
  | NNone => RNone | NBool b => RBool b | NInt z => RInt z | NFloat t => RFloat t | NString s => RString s
  | NArray l => RArray (map as_raw l)
  | NDict l => RDict (map (fun e => match e with (k, v) => (k, as_raw v) end) l)
  | NClass n p k => RClass n (map (fun v => (None, as_raw v)) p ++ map (fun e => match e with (k, v) => (Some k, as_raw v) end) k)
  end.

(** Integers. *)
Definition add_digit (n c : Z) : Z := n * 10 + digit_value c.
Lemma acc_number u : forall p, Z.pos (Pos.of_uint_acc u p) = fold_left add_digit (uint_text u) (Z.pos p).
Proof. induction u; intros p; [reflexivity|..]; cbn [uint_text fold_left Pos.of_uint_acc]; rewrite IHu; f_equal; unfold add_digit; match goal with |- context [digit_value ?c] => let v := eval compute in (digit_value c) in change (digit_value c) with v end; lia. Qed.
Lemma uint_number u : number 10 (uint_text u) = Z.of_N (N.of_uint u).
Proof. unfold number, N.of_uint. change (fun n c => n * 10 + digit_value c) with add_digit. induction u; [reflexivity|..]; cbn [uint_text fold_left Pos.of_uint]; [exact IHu|..]; unfold Z.of_N; rewrite acc_number; reflexivity. Qed.
Lemma decimal_number z : 0 <= z -> number 10 (decimal z) = z.
Proof. intros H. unfold decimal. rewrite uint_number, Unsigned.of_to. lia. Qed.
Lemma digit_ten c : is_digit c = true -> digit_of 10 c = true. Proof. intros H. unfold digit_of, digit_value. rewrite H. unfold is_digit in H. lia. Qed.
Lemma decimal_written z : 0 <= z -> written 10 (decimal z) z.
Proof. intros H. rewrite <- (decimal_number z H) at 2. apply number_written; [lia|]. eapply Forall_impl; [|apply TextProofs.decimal_digits]. intros c. apply digit_ten. Qed.
Lemma nzhead_no0 u v : nzhead u <> D0 v. Proof. induction u; cbn [nzhead]; try discriminate. exact IHu. Qed.
Lemma decimal_lead z c r : 0 < z -> decimal z = c :: r -> c <> 48.
Proof.
  intros H E ->. unfold decimal in E. pose proof (Unsigned.to_of (N.to_uint (Z.to_N z))) as T. rewrite Unsigned.of_to in T. unfold unorm in T. destruct (N.to_uint (Z.to_N z)) as [|u|u|u|u|u|u|u|u|u|u] eqn:Eu; try discriminate E.
  destruct (nzhead (D0 u)) eqn:En; try discriminate T. { injection T as ->. pose proof (Unsigned.of_to (Z.to_N z)) as X. rewrite Eu in X. cbn in X. lia. }
  exact (nzhead_no0 _ _ En).
Qed.
Lemma decimal_short19 z : 0 <= z <= 2 ^ 63 -> (length (decimal z) <= 19)%nat.
Proof.
  intros H. destruct (Nat.le_gt_cases (length (decimal z)) 19) as [|L]; [assumption|exfalso]. destruct (Z.eq_dec z 0) as [->|N]; [vm_compute in L; lia|]. destruct (decimal z) as [|c r] eqn:E; [cbn in L; lia|]. pose proof (decimal_lead z c r ltac:(lia) E) as Nc.
  pose proof (decimal_number z ltac:(lia)) as V. pose proof (TextProofs.decimal_digits z) as D. rewrite E in V, D. pose proof (Forall_inv D) as Dc. cbn beta in Dc. pose proof (Forall_inv_tail D) as Dr. unfold number in V. cbn [fold_left] in V.
  assert (G : forall ds n, 0 <= n -> Forall (fun c => is_digit c = true) ds -> n * 10 ^ Z.of_nat (length ds) <= fold_left (fun n c => n * 10 + digit_value c) ds n).
  { clear. induction ds as [|c ds IH]; intros n Hn F; [cbn; lia|]. cbn [fold_left length]. pose proof (Forall_inv F) as Fc. cbn beta in Fc. assert (0 <= digit_value c) by (unfold digit_value; rewrite Fc; unfold is_digit in Fc; lia). specialize (IH (n * 10 + digit_value c) ltac:(lia) (Forall_inv_tail F)). rewrite Nat2Z.inj_succ, Z.pow_succ_r by lia. assert (0 < 10 ^ Z.of_nat (length ds)) by (apply Z.pow_pos_nonneg; lia). nia. }
  assert (1 <= digit_value c) by (unfold digit_value; rewrite Dc; unfold is_digit in Dc; lia). specialize (G r (0 * 10 + digit_value c) ltac:(lia) Dr). rewrite V in G. cbn [length] in L. assert (10 ^ 19 <= 10 ^ Z.of_nat (length r)) by (apply Z.pow_le_mono_r; lia). assert (2 ^ 63 < 10 ^ 19) by reflexivity. nia.
Qed.
Lemma print_int_text z : in_range z -> int_text z (print_int z).
Proof.
  intros R. unfold in_range in R. unfold print_int. destruct (Z.ltb_spec z 0) as [L|L].
  - destruct (decimal (- z)) as [|c r] eqn:E; [destruct (decimal_nonempty _ E)|]. pose proof (decimal_written (- z) ltac:(lia)) as Wr. rewrite E in Wr. replace z with (-1 * - z) at 1 by lia. apply (I_decimal [45] (-1) c r (- z)); [unfold sign_text; auto|exact Wr|exact (decimal_lead (- z) c r ltac:(lia) E)|unfold in_range; lia].
  - destruct (decimal z) as [|c r] eqn:E; [destruct (decimal_nonempty _ E)|]. pose proof (decimal_written z L) as Wr. rewrite E in Wr. destruct (Z.eq_dec z 0) as [->|N].
    + vm_compute in E. injection E as <- <-. apply (I_octal [] 1 [] 0); [left; auto| |unfold in_range; lia]. apply (Wr_snoc 8 [] 0 48 0); [constructor|left; lia|lia].
    + replace z with (1 * z) at 1 by lia. apply (I_decimal [] 1 c r z); [left; auto|exact Wr|exact (decimal_lead z c r ltac:(lia) E)|unfold in_range; lia].
Qed.
Lemma digits_spec z : PyonSpec.decimal_digits (decimal z). Proof. apply digits_iff. apply TextProofs.decimal_digits. Qed.
Lemma print_int_prefix erange z : sane erange -> in_range z -> forall u v, print_int z = u ++ v -> erange u = false.
Proof.
  intros S R u v E. unfold in_range in R. unfold print_int in E. destruct (Z.ltb_spec z 0) as [L|L].
  - destruct u as [|c u]; [apply (S [] 1 []); [left; auto|constructor|cbn; lia]|]. injection E as <- E. pose proof (digits_spec (- z)) as D. pose proof (decimal_short19 (- z) ltac:(lia)) as Ls. rewrite E in D, Ls. rewrite app_length in Ls. apply (S [45] (-1) u); [unfold sign_text; auto| |lia]. apply Forall_app in D. tauto.
  - pose proof (digits_spec z) as D. pose proof (decimal_short19 z ltac:(lia)) as Ls. rewrite E in D, Ls. rewrite app_length in Ls. apply (S [] 1 u); [left; auto| |lia]. apply Forall_app in D. tauto.
Qed.
(** Strings. *)
Lemma print_quoted s : quoted s (print_string s).
Proof.
  exists (flat_map print_char s). split; [reflexivity|]. induction s as [|c s IH]; [constructor|]. cbn [flat_map]. unfold print_char at 1. destruct (Z.eqb_spec c 34) as [->|N1]; [apply Es_quote; exact IH|]. destruct (Z.eqb_spec c 92) as [->|N2]; [apply Es_backslash; exact IH|]. destruct (Z.eqb_spec c newline) as [->|N3]; [apply Es_newline; exact IH|]. destruct (Z.eqb_spec c 9) as [->|N4]; [apply Es_tab; exact IH|]. apply Es_plain; auto.
Qed.
(** Lists. *)
Lemma space_gap : gap [32]. Proof. apply G_space; [reflexivity|constructor]. Qed.
Lemma commas_separated {X} (W : X -> list Z -> Prop) (pr : X -> list Z) xs : xs <> [] -> Forall (fun x => W x (pr x)) xs -> separated W xs (commas (map pr xs)).
Proof.
  intros N F. induction F as [|x xs Wx F IH]; [contradiction N; reflexivity|]. destruct xs as [|y xs]; [constructor; exact Wx|]. change (commas (map pr (x :: y :: xs))) with (pr x ++ [] ++ 44 :: [32] ++ commas (map pr (y :: xs))). apply Sp_more; [exact Wx|constructor|exact space_gap|apply IH; discriminate].
Qed.
Lemma commas_enclosed {X} (W : X -> list Z -> Prop) (pr : X -> list Z) a b xs : Forall (fun x => W x (pr x)) xs -> enclosed W a b xs (a :: commas (map pr xs) ++ [b]).
Proof.
  intros F. destruct xs as [|x xs]; [apply (En_empty W a b []); constructor|]. change (a :: commas (map pr (x :: xs)) ++ [b]) with (a :: [] ++ commas (map pr (x :: xs)) ++ [] ++ [b]). apply En_some; [constructor| |constructor]. apply commas_separated; [discriminate|exact F].
Qed.
Lemma all_some {A B} (h : A -> option B) (k : A -> B) l : Forall (fun a => h a = Some (k a)) l -> all (map h l) = Some (map k l).
Proof. induction 1 as [|a l H F IH]; [reflexivity|]. cbn [map all]. rewrite H, IH. reflexivity. Qed.
Lemma distinct_nodup ks : NoDup ks -> distinct ks = true.
Proof.
  induction 1 as [|k ks N _ IH]; [reflexivity|]. cbn [distinct]. rewrite IH, andb_true_r. apply negb_true_iff. apply not_true_is_false. intros H. apply existsb_exists in H. destruct H as (x & I & E). apply text_eqb_eq in E. subst. contradiction.
Qed.
Lemma all_app {A} (l l' : list (option A)) a a' : all l = Some a -> all l' = Some a' -> all (l ++ l') = Some (a ++ a').
Proof.
  revert a. induction l as [|[x|] l IH]; intros a H H'; cbn [all app] in *; [injection H as <-; exact H'| |discriminate]. destruct (all l) as [b|]; [|discriminate]. cbn in H. injection H as <-. rewrite (IH b eq_refl H'). reflexivity.
Qed.
Lemma keywords_all (k : list (list Z * node)) : keywords (map (fun e => (Some (fst e), snd e)) k) = Some k.
Proof. induction k as [|[n v] k IH]; [reflexivity|]. cbn [map keywords fst snd]. rewrite IH. reflexivity. Qed.
Lemma bind_all (p : list node) (k : list (list Z * node)) : NoDup (map fst k) -> bind_args (map (fun v => (None, v)) p ++ map (fun e => (Some (fst e), snd e)) k) = Some (p, k).
Proof.
  intros N. induction p as [|v p IH]; [|cbn [map app bind_args]; rewrite IH; reflexivity]. cbn [map app]. pose proof (keywords_all k) as K. destruct k as [|[n v] k]; [reflexivity|]. cbn [map fst snd] in *. cbn [bind_args]. rewrite K. cbn [map fst]. rewrite distinct_nodup by exact N. reflexivity.
Qed.
Lemma map_pair {A B} (h : A -> B) (l : list (list Z * A)) : map (fun e => match e with (k, v) => (k, h v) end) l = map (fun e => (fst e, h (snd e))) l.
Proof. apply map_ext. intros [k v]. reflexivity. Qed.
Lemma print_back erange : sane erange -> forall v, proper erange v -> writes (clean_number erange) (as_raw v) (print v) /\ value (as_raw v) = Some v.
Proof.
  intros S. apply (node_all (fun v => proper erange v -> writes (clean_number erange) (as_raw v) (print v) /\ value (as_raw v) = Some v)).
  - intros _. split; [constructor|reflexivity].
  - intros [|] _; (split; [constructor|reflexivity]).
  - intros z P. inversion P as [| |z' R| | | | |]; subst. split; [|reflexivity]. constructor. split; [apply print_int_text; exact R|apply print_int_prefix; auto].
  - intros t P. inversion P; subst. split; [|reflexivity]. constructor. split; [reflexivity|]. auto.
  - intros s _. split; [|reflexivity]. constructor. apply print_quoted.
  - intros l IH P. inversion P as [| | | | |l' F| |]; subst. assert (B : Forall (fun v => writes (clean_number erange) (as_raw v) (print v) /\ value (as_raw v) = Some v) l) by (rewrite Forall_forall in *; auto). split.
    + cbn [as_raw print]. constructor. replace (map print l) with (map (fun x => x) (map print l)) by apply map_id. assert (G : forall l, Forall (fun v => writes (clean_number erange) (as_raw v) (print v) /\ value (as_raw v) = Some v) l -> enclosed (writes (clean_number erange)) 91 93 (map as_raw l) (91 :: commas (map print l) ++ [93])).
      { clear. intros l F. assert (Sp : l <> [] -> separated (writes (clean_number erange)) (map as_raw l) (commas (map print l))). { induction F as [|x xs [Wx _] F IH]; [intros N; contradiction N; reflexivity|]. intros _. destruct xs as [|y xs]; [constructor; exact Wx|]. change (commas (map print (x :: y :: xs))) with (print x ++ [] ++ 44 :: [32] ++ commas (map print (y :: xs))). cbn [map]. apply Sp_more; [exact Wx|constructor|exact space_gap|apply IH; discriminate]. }
        destruct l as [|x xs]; [apply (En_empty _ 91 93 []); constructor|]. change (91 :: commas (map print (x :: xs)) ++ [93]) with (91 :: [] ++ commas (map print (x :: xs)) ++ [] ++ [93]). apply En_some; [constructor| |constructor]. apply Sp. discriminate. }
      rewrite map_id. apply G. exact B.
    + cbn [as_raw value]. rewrite map_map. rewrite (all_some _ (fun v => v)); [rewrite map_id; reflexivity|]. rewrite Forall_forall in *. intros v I. apply B. exact I.
  - intros l IH P. inversion P as [| | | | | |l' F N|]; subst. assert (B : Forall (fun e => writes (clean_number erange) (as_raw (snd e)) (print (snd e)) /\ value (as_raw (snd e)) = Some (snd e)) l). { rewrite Forall_map in *. rewrite Forall_forall in *. auto. } split.
    + cbn [as_raw print]. rewrite map_pair. constructor. replace (map _ l) with (map (fun e => (fst e, as_raw (snd e))) l) by reflexivity.
      assert (E : map (fun e => match e with (k, v) => print_string k ++ 58 :: 32 :: print v end) l = map (fun e => print_string (fst e) ++ [] ++ 58 :: [32] ++ print (snd e)) l) by (apply map_ext; intros [k v]; reflexivity). rewrite E. clear - B. set (pr := fun e : list Z * node => print_string (fst e) ++ [] ++ 58 :: [32] ++ print (snd e)) in *.
      assert (Sp : l <> [] -> separated (entry (writes (clean_number erange))) (map (fun e => (fst e, as_raw (snd e))) l) (commas (map pr l))). { induction B as [|x xs [Wx _] F IH]; [intros N; contradiction N; reflexivity|]. intros _. assert (Ex : entry (writes (clean_number erange)) (fst x, as_raw (snd x)) (pr x)) by (unfold pr; constructor; [apply print_quoted|constructor|exact space_gap|exact Wx]). destruct xs as [|y xs]; [constructor; exact Ex|]. change (commas (map pr (x :: y :: xs))) with (pr x ++ [] ++ 44 :: [32] ++ commas (map pr (y :: xs))). cbn [map]. apply Sp_more; [exact Ex|constructor|exact space_gap|apply IH; discriminate]. }
      destruct l as [|x xs]; [apply (En_empty _ 123 125 []); constructor|]. change (123 :: commas (map pr (x :: xs)) ++ [125]) with (123 :: [] ++ commas (map pr (x :: xs)) ++ [] ++ [125]). apply En_some; [constructor| |constructor]. apply Sp. discriminate.
    + cbn [as_raw value]. rewrite map_map. rewrite (all_some _ (fun e => e)); [rewrite map_id, distinct_nodup by exact N; reflexivity|]. rewrite Forall_forall in *. intros [k v] I. destruct (B _ I) as [_ V]. cbn [snd] in V. rewrite V. reflexivity.
  - intros n p k IHp IHk P. inversion P as [| | | | | | |n' p' k' Nn Nr Fp Fk Fn N]; subst.
    assert (Bp : Forall (fun v => writes (clean_number erange) (as_raw v) (print v) /\ value (as_raw v) = Some v) p) by (rewrite Forall_forall in *; auto).
    assert (Bk : Forall (fun e => name (fst e) /\ writes (clean_number erange) (as_raw (snd e)) (print (snd e)) /\ value (as_raw (snd e)) = Some (snd e)) k). { rewrite Forall_map in *. rewrite Forall_forall in *. auto. }
    split.
    + cbn [as_raw print]. set (xs := map (fun v => (None, as_raw v)) p ++ map (fun e => match e with (k, v) => (Some k, as_raw v) end) k). set (ts := map print p ++ map (fun e => match e with (k, v) => k ++ 61 :: print v end) k).
      assert (F2 : Forall2 (arg (writes (clean_number erange))) xs ts). { unfold xs, ts. apply Forall2_app; [clear - Bp; induction Bp as [|v p [Wv _] F IH]; constructor; [constructor; exact Wv|exact IH]|]. clear - Bk. induction Bk as [|[m v] k (Nm & Wv & _) F IH]; constructor; [|exact IH]. cbn [fst snd] in *. apply (Arg_keyword _ m [] [] (as_raw v) (print v)); [exact Nm|constructor|constructor|exact Wv]. }
      clearbody xs ts. apply (W_args _ n [] xs (40 :: commas ts ++ [41])); [exact Nn|exact Nr|constructor|]. clear - F2.
      assert (Sp : xs <> [] -> separated (arg (writes (clean_number erange))) xs (commas ts)). { induction F2 as [|x t xs ts Wx F IH]; [intros N; contradiction N; reflexivity|]. intros _. destruct F as [|y u xs ts Wy F]; [constructor; exact Wx|]. change (commas (t :: u :: ts)) with (t ++ [] ++ 44 :: [32] ++ commas (u :: ts)). apply Sp_more; [exact Wx|constructor|exact space_gap|apply IH; discriminate]. }
      destruct F2 as [|x t xs ts]; [apply (En_empty _ 40 41 []); constructor|]. change (40 :: commas (t :: ts) ++ [41]) with (40 :: [] ++ commas (t :: ts) ++ [] ++ [41]). apply En_some; [constructor| |constructor]. apply Sp. discriminate.
    + cbn [as_raw value]. rewrite map_app, !map_map. erewrite all_app with (a := map (fun v => (None, v)) p) (a' := map (fun e => (Some (fst e), snd e)) k); [rewrite bind_all by exact N; reflexivity| |].
      * apply all_some. rewrite Forall_forall in *. intros v I. destruct (Bp v I) as [_ V]. rewrite V. reflexivity.
      * apply all_some. rewrite Forall_forall in *. intros [m v] I. destruct (Bk _ I) as (_ & _ & V). cbn [fst snd] in *. rewrite V. reflexivity.
Qed.
Theorem canonical erange v : sane erange -> proper erange v -> parse erange (print v) = Ok v.
Proof.
  intros S P. destruct (print_back erange S v P) as [Wv V]. destruct (parse_fuel erange (Datatypes.S (length (print v))) (print v) ltac:(lia)) as [<- _]. pose proof (parse_back erange (Datatypes.S (length (print v))) (as_raw v) (print v) [] [] Wv ltac:(constructor) ltac:(left; constructor) ltac:(lia)) as B. cbn [app] in B. rewrite app_nil_r, V in B. exact B.
Qed.
