From Coq Require Import Reals ZArith List Bool String Lia Arith.
From Verif Require Import TextModel TextProofs GeomModel PbcModel GeoModel ShapesModel MeshModel MeshSpec XyzModel XyzSpec PrintModel PrintSpec OptModel.
Import ListNotations.
Local Open Scope list_scope.
Local Open Scope nat_scope.

Fixpoint commas (l : list (list token)) : list token :=
  match l with [] => [] | [t] => t | t :: l' => t ++ TComma :: commas l' end.
Fixpoint toks (e : expr) : list token :=
  match e with
  | Number t => [TNumber t]
  | Symbol s => [TName s]
  | Call f args => TName f :: TOpen :: commas (map toks args) ++ [TClose]
  | Braces args => TLeft :: commas (map toks args) ++ [TRight]
  | ToSlot f => [TName f; TAt; THash]
  | MapOver b l => toks b ++ TAmp :: TMap :: toks l
  end.
(** The body of a function is a call. *)
Fixpoint plain_expr (e : expr) : Prop :=
  match e with
  | Call _ args => fold_right and True (map plain_expr args)
  | Braces args => fold_right and True (map plain_expr args)
  | MapOver (Call f args) l => fold_right and True (map plain_expr args) /\ plain_expr l
  | MapOver _ _ => False
  | _ => True
  end.
Section expr_induction.
Variable P : expr -> Prop.
Hypothesis PN : forall t, P (Number t).
Hypothesis PS : forall t, P (Symbol t).
Hypothesis PC : forall f args, Forall P args -> P (Call f args).
Hypothesis PB : forall args, Forall P args -> P (Braces args).
Hypothesis PT : forall t, P (ToSlot t).
Hypothesis PM : forall b l, P b -> P l -> P (MapOver b l).
Fixpoint expr_induction (e : expr) : P e :=
  match e with
  | Number t => PN t
  | Symbol s => PS s
  | Call f args => PC f args ((fix all l : Forall P l := match l with [] => Forall_nil P | a :: l' => Forall_cons a (expr_induction a) (all l') end) args)
  | Braces args => PB args ((fix all l : Forall P l := match l with [] => Forall_nil P | a :: l' => Forall_cons a (expr_induction a) (all l') end) args)
  | ToSlot f => PT f
  | MapOver b l => PM b l (expr_induction b) (expr_induction l)
  end.
End expr_induction.

Definition ok_rest (r : list token) : Prop := match r with [] => True | TComma :: _ => True | TClose :: _ => True | TRight :: _ => True | _ => False end.
Definition reads (e : expr) : Prop := forall n rest, 3 * List.length (toks e) <= n -> ok_rest rest -> parse n (toks e ++ rest) = Some (e, rest).
Lemma toks_nonempty e : 1 <= List.length (toks e).
Proof. induction e using expr_induction; cbn [toks List.length]; try lia. rewrite app_length. lia. Qed.
Lemma after_ok {A} (rest : list token) (x : A) f : ok_rest rest -> match rest with TAmp :: TMap :: r => f r | _ => x end = x.
Proof. destruct rest as [|[]]; cbn; tauto. Qed.
Lemma toks_start e c r : toks e = c :: r -> plain_expr e -> c <> TClose /\ c <> TRight.
Proof.
  revert c r. induction e using expr_induction; intros c r E PL; cbn [toks] in E; try (injection E as <- _; split; discriminate).
  destruct e1; try contradiction. cbn [toks app] in E. injection E as <- _. split; discriminate.
Qed.
Lemma not_closing e c r closing : toks e = c :: r -> plain_expr e -> token_eqb c closing = false.
Proof. intros E P. destruct (toks_start e c r E P). destruct c, closing; try reflexivity; congruence. Qed.
Lemma more_reads closing (args : list expr) : Forall reads args -> closing = TClose \/ closing = TRight -> forall n rest, args <> [] ->
  3 * List.length (commas (map toks args)) + 1 <= n -> parse_more n closing (commas (map toks args) ++ closing :: rest) = Some (args, rest).
Proof.
  intros F C. assert (OK : forall rest, ok_rest (closing :: rest)) by (intros; destruct C as [->| ->]; exact Logic.I).
  assert (SELF : token_eqb closing closing = true) by (destruct C as [->| ->]; reflexivity).
  induction F as [|e args E F IH]; intros n rest NE L; [congruence|].
  destruct args as [|e' args].
  - cbn [map commas] in *. destruct n as [|n]; [lia|]. cbn [parse_more]. rewrite (E n (closing :: rest)) by (try lia; apply OK). cbn [obind fst snd].
    destruct C as [->| ->]; reflexivity.
  - cbn [map] in *. set (more := commas (toks e' :: map toks args)) in *.
    change (commas (toks e :: toks e' :: map toks args)) with (toks e ++ TComma :: more) in *. rewrite app_length in L. cbn [List.length] in L.
    destruct n as [|n]; [lia|]. rewrite <- app_assoc. cbn [app parse_more]. rewrite (E n) by (try lia; exact Logic.I). cbn [obind fst snd].
    rewrite (IH n rest) by (try lia; discriminate). reflexivity.
Qed.
Lemma args_reads closing (args : list expr) n rest : Forall reads args -> Forall plain_expr args -> closing = TClose \/ closing = TRight ->
  3 * List.length (commas (map toks args)) + 2 <= n -> parse_args n closing (commas (map toks args) ++ closing :: rest) = Some (args, rest).
Proof.
  intros F PL C L. destruct n as [|n]; [lia|]. destruct args as [|e args].
  - cbn [map commas app parse_args]. destruct C as [->| ->]; reflexivity.
  - pose proof (more_reads closing (e :: args) F C n rest ltac:(discriminate) ltac:(lia)) as M.
    destruct (toks e) as [|c r] eqn:T; [pose proof (toks_nonempty e); rewrite T in *; cbn in *; lia|].
    inversion PL; subst.
    assert (H : exists r', commas (map toks (e :: args)) = c :: r') by (cbn [map]; rewrite T; destruct args; cbn [map commas app]; eauto).
    destruct H as (r' & H'). rewrite H' in *. cbn [app parse_args]. rewrite (not_closing e c r closing T) by assumption. exact M.
Qed.
Lemma plain_args args : fold_right and True (map plain_expr args) -> Forall plain_expr args.
Proof. induction args as [|a args IH]; cbn; intros H; constructor; tauto. Qed.
Lemma call_reads f args n rest : Forall reads args -> Forall plain_expr args -> 3 * List.length (toks (Call f args)) <= n ->
  parse n (toks (Call f args) ++ rest) = match rest with TAmp :: TMap :: r => a <- parse (n - 1) r ;; Some (MapOver (Call f args) (fst a), snd a) | _ => Some (Call f args, rest) end.
Proof.
  intros F PL L. cbn [toks List.length] in L. rewrite app_length in L. cbn [List.length] in L. destruct n as [|n]; [lia|].
  cbn [toks app]. rewrite <- app_assoc. cbn [app parse]. rewrite (args_reads TClose args n rest) by (try assumption; try lia; auto). cbn [obind fst snd].
  replace (S n - 1) with n by lia. reflexivity.
Qed.
Definition args_read (e : expr) : Prop := match e with Call _ args => Forall reads args | _ => True end.
Lemma all_reads args : Forall (fun e => plain_expr e -> reads e /\ args_read e) args -> Forall plain_expr args -> Forall reads args.
Proof. intros H PL. induction PL as [|a l P1 P2 IH]; [constructor|]. inversion H as [|? ? H1 H2]; subst. constructor; [apply H1, P1|exact (IH H2)]. Qed.
Lemma parse_reads' e : plain_expr e -> reads e /\ args_read e.
Proof.
  induction e as [t|t|f args IH|args IH|t|b l IHb IHl] using expr_induction; intros PL.
  - split; [|exact Logic.I]. intros n rest L OK. destruct n as [|n]; [cbn in L; lia|]. cbn [toks app parse obind fst snd]. apply after_ok, OK.
  - split; [|exact Logic.I]. intros n rest L OK. destruct n as [|n]; [cbn in L; lia|]. cbn [toks app parse]. destruct rest as [|[]]; cbn in *; try contradiction; reflexivity.
  - cbn [plain_expr] in PL. apply plain_args in PL. pose proof (all_reads args IH PL) as A. split; [|exact A].
    intros n rest L OK. rewrite call_reads; [apply after_ok, OK|exact A|exact PL|exact L].
  - cbn [plain_expr] in PL. apply plain_args in PL. pose proof (all_reads args IH PL) as A. split; [|exact Logic.I]. intros n rest L OK.
    cbn [toks List.length] in L. rewrite app_length in L. cbn [List.length] in L. destruct n as [|n]; [lia|].
    cbn [toks app]. rewrite <- app_assoc. cbn [app parse]. rewrite (args_reads TRight args n rest); [cbn [obind fst snd]; apply after_ok, OK|exact A|exact PL|auto|lia].
  - split; [|exact Logic.I]. intros n rest L OK. destruct n as [|n]; [cbn in L; lia|]. cbn [toks app parse obind fst snd]. apply after_ok, OK.
  - split; [|exact Logic.I]. intros n rest L OK. destruct b as [| |f args| | |]; try contradiction. cbn [plain_expr] in PL. destruct PL as [PA PL].
    destruct (IHb PA) as [_ RA]. apply plain_args in PA. destruct (IHl PL) as [RL _]. cbn [args_read] in RA.
    change (toks (MapOver (Call f args) l)) with (toks (Call f args) ++ TAmp :: TMap :: toks l) in *. rewrite app_length in L. cbn [List.length] in L.
    rewrite <- app_assoc. rewrite call_reads; [|exact RA|exact PA|lia]. cbn [app].
    pose proof (toks_nonempty (Call f args)). rewrite (RL (n - 1) rest) by (try assumption; lia). reflexivity.
Qed.
Lemma parse_reads e : plain_expr e -> reads e.
Proof. intros P. apply parse_reads', P. Qed.
Lemma read_spelled t e : lex [] t = Some (toks e) -> plain_expr e -> read t = Some e.
Proof.
  intros L P. unfold read. rewrite L. cbn [obind].
  pose proof (parse_reads e P (3 * List.length (toks e)) [] (le_n _) Logic.I) as R. rewrite app_nil_r in R. rewrite R. reflexivity.
Qed.

(** *** Words and marks *)
Definition lexed (t : list Z) (ts : list token) : Prop := forall r, lex [] (t ++ r) = (x <- lex [] r ;; Some (ts ++ x)).
Lemma lexed_nil : lexed [] [].
Proof. intros r. cbn [app]. destruct (lex [] r); reflexivity. Qed.
Lemma lexed_app t1 t2 ts1 ts2 : lexed t1 ts1 -> lexed t2 ts2 -> lexed (t1 ++ t2) (ts1 ++ ts2).
Proof. intros A B r. rewrite <- app_assoc, A, B. destruct (lex [] r); cbn [obind]; [rewrite app_assoc|]; reflexivity. Qed.
Lemma lexed_eq t ts ts' : lexed t ts -> ts = ts' -> lexed t ts'.
Proof. intros A <-. exact A. Qed.
Lemma lexed_done t ts : lexed t ts -> lex [] t = Some ts.
Proof. intros A. specialize (A []). rewrite app_nil_r in A. rewrite A. cbn [lex word_tokens obind]. rewrite app_nil_r. reflexivity. Qed.
Definition ends_word (t : list Z) : bool := match t with c :: _ => negb (word_char c) | [] => false end.
Lemma lex_word w : forallb word_char w = true -> forall w0 r, lex w0 (w ++ r) = lex (w0 ++ w) r.
Proof.
  induction w as [|c w IH]; intros H w0 r; cbn [app]; [rewrite app_nil_r; reflexivity|].
  cbn [forallb] in H. apply andb_prop in H as [C H]. cbn [lex]. rewrite C, IH by exact H. rewrite <- app_assoc. reflexivity.
Qed.
Lemma lex_flush w t ts : word_tokens w = Some ts -> ends_word t = true -> lex w t = (x <- lex [] t ;; Some (ts ++ x)).
Proof.
  intros W E. destruct t as [|c t]; [discriminate|]. cbn [ends_word] in E. apply negb_true_iff in E.
  cbn [lex]. rewrite E, W. cbn [word_tokens obind app].
  destruct (is_space c); [destruct (lex [] t); reflexivity|].
  destruct (Z.eqb c 47). { destruct t as [|c' t]; [reflexivity|]. destruct (Z.eqb c' 64); [|reflexivity]. destruct (lex [] t); reflexivity. }
  destruct (mark c) as [m|]; [|reflexivity]. cbn [obind]. destruct (lex [] t); reflexivity.
Qed.
Lemma number_chars w : is_number w = true -> forallb word_char w = true /\ word_tokens w = Some [TNumber w].
Proof.
  intros H.
  assert (D : forall d, forallb (fun c => is_digit c || is_dot c) d = true -> forallb word_char d = true).
  { intros d. induction d as [|c d IH]; cbn [forallb]; intros F; [reflexivity|]. apply andb_prop in F as [C F]. rewrite (IH F), andb_true_r.
    unfold word_char. apply orb_prop in C as [C|C]; rewrite C; rewrite ?orb_true_r; reflexivity. }
  pose proof H as H0. unfold is_number in H. destruct w as [|c w]; [discriminate|].
  apply andb_prop in H as [H _]. apply andb_prop in H as [H1 H2].
  assert (W : forallb word_char (c :: w) = true /\ is_name (c :: w) = false).
  { destruct (Z.eqb c 45) eqn:E.
    - apply Z.eqb_eq in E. subst c. split; [cbn [forallb]; rewrite (D w H2); reflexivity|reflexivity].
    - split; [apply D, H2|]. cbn [is_name]. assert (L : is_letter c = false) by (unfold is_digit in H1; unfold is_letter; lia). rewrite L. reflexivity. }
  destruct W as [W1 W2]. split; [exact W1|]. unfold word_tokens. rewrite W2, H0. reflexivity.
Qed.
Lemma lexed_num s t ts : is_number s = true -> ends_word t = true -> lexed t ts -> lexed (s ++ t) (TNumber s :: ts).
Proof.
  intros N E L r. destruct (number_chars s N) as [C W]. rewrite <- app_assoc, lex_word by exact C. cbn [app].
  assert (E' : ends_word (t ++ r) = true) by (destruct t; [discriminate|exact E]).
  rewrite (lex_flush s (t ++ r) _ W E'), L. destruct (lex [] r); reflexivity.
Qed.
(** Literal texts which end with a mark. *)
Lemma lex_literal n : forall t w ts, List.length t <= n -> t <> [] -> word_char (last t 0%Z) = false -> lex w t = Some ts -> forall r, lex w (t ++ r) = (x <- lex [] r ;; Some (ts ++ x)).
Proof.
  induction n as [|n IH]; intros t w ts LE NE E L r; [destruct t; [congruence|cbn in LE; lia]|].
  destruct t as [|c t]; [congruence|]. cbn [List.length] in LE. cbn [app lex] in *.
  destruct t as [|c' t'].
  - cbn [last] in E. rewrite E in *. cbn [lex word_tokens app] in *. destruct (word_tokens w) as [tw|]; [|discriminate]. cbn [obind] in *.
    destruct (is_space c). { injection L as <-. destruct (lex [] r); cbn [obind]; [rewrite app_nil_r|]; reflexivity. }
    destruct (Z.eqb c 47); [discriminate|]. destruct (mark c) as [m|]; [|discriminate]. cbn [obind] in *. injection L as <-.
    destruct (lex [] r); cbn [obind]; [|reflexivity]. rewrite <- app_assoc. reflexivity.
  - assert (E' : word_char (last (c' :: t') 0%Z) = false) by exact E.
    destruct (word_char c).
    + apply IH; [lia|discriminate|exact E'|exact L].
    + destruct (word_tokens w) as [tw|]; [|discriminate]. cbn [obind] in *.
      destruct (is_space c).
      { destruct (lex [] (c' :: t')) as [x|] eqn:X; [|discriminate]. cbn [obind] in L. injection L as <-.
        rewrite (IH (c' :: t') [] x) by (try lia; try discriminate; assumption). destruct (lex [] r); cbn [obind]; [rewrite app_assoc|]; reflexivity. }
      destruct (Z.eqb c 47).
      { cbn [app]. destruct (Z.eqb c' 64); [|discriminate]. destruct t' as [|d t'].
        - cbn [lex word_tokens obind app] in *. injection L as <-. destruct (lex [] r); cbn [obind]; [|reflexivity]. rewrite <- app_assoc. reflexivity.
        - destruct (lex [] (d :: t')) as [x|] eqn:X; [|discriminate]. cbn [obind] in L. injection L as <-.
          rewrite (IH (d :: t') [] x) by (try (cbn [List.length] in *; lia); try discriminate; assumption).
          destruct (lex [] r); cbn [obind]; [rewrite <- app_assoc|]; reflexivity. }
      destruct (mark c) as [m|]; [|discriminate]. cbn [obind] in *.
      destruct (lex [] (c' :: t')) as [x|] eqn:X; [|discriminate]. cbn [obind] in L. injection L as <-.
      rewrite (IH (c' :: t') [] x) by (try lia; try discriminate; assumption). destruct (lex [] r); cbn [obind]; [rewrite <- app_assoc|]; reflexivity.
Qed.
Lemma lexed_literal t ts : t <> [] -> word_char (last t 0%Z) = false -> lex [] t = Some ts -> lexed t ts.
Proof. intros NE E L r. exact (lex_literal (List.length t) t [] ts (le_n _) NE E L r). Qed.
Lemma lexed_decimal z t ts : ends_word t = true -> lexed t ts -> lexed (decimal z ++ t) (TNumber (decimal z) :: ts).
Proof.
  apply lexed_num. pose proof (decimal_digits z) as D. pose proof (decimal_nonempty z) as NE. destruct (decimal z) as [|c d]; [congruence|].
  inversion D as [|? ? C D']; subst. unfold is_number. assert (N45 : Z.eqb c 45 = false) by (unfold is_digit in C; lia). rewrite N45.
  assert (A : forall l, Forall (fun c => is_digit c = true) l -> forallb (fun c => is_digit c || is_dot c) l = true /\ filter is_dot l = []).
  { induction 1 as [|x l X F [IH1 IH2]]; [split; reflexivity|]. cbn [forallb filter]. rewrite X, IH1. cbn [orb andb].
    assert (ND : is_dot x = false) by (unfold is_digit in X; unfold is_dot; lia). rewrite ND. auto. }
  destruct (A (c :: d)) as [A1 A2]; [constructor; assumption|]. rewrite C, A1, A2. reflexivity.
Qed.
