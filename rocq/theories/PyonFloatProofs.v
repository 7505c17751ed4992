(** Floats, and telling them from integers. *)
From Coq Require Import ZArith List Bool Lia ZifyBool.
From Verif Require Import TextModel TextProofs StringsSpec StringsProofs PyonModel PyonSpec PyonLexProofs PyonNumProofs.
Import ListNotations.
Open Scope Z_scope.

Lemma digits_iff ds : decimal_digits ds <-> Forall (fun c => is_digit c = true) ds.
Proof. unfold decimal_digits. split; intros H; (eapply Forall_impl; [|exact H]); intros c X; cbn beta in *; unfold is_digit in *; lia. Qed.
Lemma hex_iff ds : hex_digits ds <-> Forall (fun c => digit_of 16 c = true) ds.
Proof.
  unfold hex_digits. split; intros H; (eapply Forall_impl; [|exact H]); intros c X; cbn beta in *.
  - apply (worth_digit 16 c (digit_value c)); unfold worth, digit_value, is_digit; destruct (Z.leb 48 c && Z.leb c 57) eqn:E1; try lia; destruct (Z.leb 97 c && Z.leb c 122) eqn:E2; try lia; destruct (Z.leb 65 c && Z.leb c 90) eqn:E3; lia.
  - destruct (digit_worth 16 c ltac:(lia) X) as [W _]. unfold worth in W. lia.
Qed.
Lemma mantissa_whole p ds f : Forall (fun c => p c = true) ds -> ds <> [] -> no_head p f -> no_head (Z.eqb 46) f -> mantissa p (ds ++ f) = Some (ds, f).
Proof.
  intros D N F F'. unfold mantissa. rewrite (span_app p ds f D F). cbn [fst snd]. destruct ds as [|d ds]; [contradiction N; reflexivity|]. destruct f as [|c f]; [reflexivity|]. cbn [no_head] in F'. rewrite Z.eqb_sym in F'. rewrite F'. reflexivity.
Qed.
Lemma mantissa_point p a b f : Forall (fun c => p c = true) a -> Forall (fun c => p c = true) b -> p 46 = false -> a ++ b <> [] -> no_head p f -> mantissa p (a ++ 46 :: b ++ f) = Some (a ++ 46 :: b, f).
Proof.
  intros A B P N F. unfold mantissa. rewrite (span_app p a (46 :: b ++ f) A P). cbn [fst snd Z.eqb Pos.eqb]. rewrite (span_app p b f B F). cbn [fst snd]. destruct (a ++ b) eqn:E; [contradiction N; reflexivity|]. reflexivity.
Qed.
Lemma exponent_none mark f : no_head mark f -> exponent mark f = ([], f).
Proof. destruct f as [|c f]; [reflexivity|]. cbn. intros ->. reflexivity. Qed.
Lemma exponent_back mark m sg k ds f : mark m = true -> sign_text sg k -> decimal_digits ds -> ds <> [] -> no_head is_digit f -> exponent mark ((m :: sg ++ ds) ++ f) = (m :: sg ++ ds, f).
Proof.
  intros M S D N F. cbn [app exponent]. rewrite M, <- app_assoc. apply digits_iff in D. rewrite (sign_take sg k (ds ++ f) S).
  - cbn [fst snd]. rewrite (span_app is_digit ds f D F). cbn [fst snd]. destruct ds; [contradiction N; reflexivity|reflexivity].
  - destruct ds as [|d ds]; [contradiction N; reflexivity|]. apply Forall_inv in D. cbn. unfold signb. unfold is_digit in D. lia.
Qed.
Lemma unsigned_decimal s m g e f : mantissa is_digit s = Some (m, g) -> exponent (fun c => Z.eqb c 101 || Z.eqb c 69) g = (e, f) -> (forall x r, s = 48 :: x :: r -> hex_mark x = false) -> unsigned_float s = Some (m ++ e, f).
Proof.
  intros M X H. unfold unsigned_float. rewrite M. cbn [fst snd]. rewrite X. cbn [fst snd]. destruct s as [|z [|x r]]; [reflexivity|reflexivity|]. destruct (Z.eqb_spec z 48) as [->|]; [|reflexivity]. cbn [andb]. rewrite (H x r eq_refl). reflexivity.
Qed.
Lemma strtod_at sg k s m g e f : sign_text sg k -> no_head signb s -> mantissa is_digit s = Some (m, g) -> exponent (fun c => Z.eqb c 101 || Z.eqb c 69) g = (e, f) -> (forall x r, s = 48 :: x :: r -> hex_mark x = false) ->
  strtod (sg ++ s) = Some (sg ++ m ++ e, f).
Proof. intros S Hs M X H. unfold strtod. rewrite (sign_take sg k s S Hs). cbn [fst snd]. rewrite (unsigned_decimal s m g e f M X H). reflexivity. Qed.
Lemma brk_heads f : brk f -> no_head is_digit f /\ no_head (Z.eqb 46) f /\ no_head (fun c => Z.eqb c 101 || Z.eqb c 69) f /\ no_head (fun c => Z.eqb c 112 || Z.eqb c 80) f /\ no_head hex_mark f.
Proof. destruct f as [|c f]; [cbn; auto|]. cbn [brk no_head]. intros [H N]. unfold is_name, is_alpha, is_digit, hex_mark in *. repeat split; lia. Qed.
Lemma hex_no_point : digit_of 16 46 = false. Proof. reflexivity. Qed.
Lemma digit_no_mark a c r f x : decimal_digits (a ++ c :: r) -> a ++ c :: r = 48 :: x :: f -> hex_mark x = false.
Proof. intros D E. rewrite E in D. apply Forall_inv_tail, Forall_inv in D. unfold hex_mark. lia. Qed.
Lemma decimal_head ds f x r : decimal_digits ds -> no_head hex_mark f -> ds <> [] -> ds ++ f = 48 :: x :: r -> hex_mark x = false.
Proof.
  intros D F N E. destruct ds as [|d [|d' ds]]; [contradiction N; reflexivity| |].
  - cbn in E. injection E as _ ->. exact F.
  - injection E as _ <- _. apply Forall_inv_tail, Forall_inv in D. unfold hex_mark. lia.
Qed.
Lemma digits_no_sign ds f : decimal_digits ds -> ds <> [] -> no_head signb (ds ++ f).
Proof. intros D N. destruct ds as [|d ds]; [contradiction N; reflexivity|]. apply Forall_inv in D. cbn. unfold signb. lia. Qed.
Lemma written_digits b ds n : b <= 10 -> written b ds n -> decimal_digits ds.
Proof. intros B W. destruct (written_number b ds n W) as [F _]. eapply Forall_impl; [|exact F]. intros c H. cbn beta in *. destruct (digit_worth b c ltac:(lia) H) as [X Y]. unfold worth in X. lia. Qed.
(** The text which is converted to a float for an integer. *)
Lemma int_as_float z t f : int_text z t -> brk f -> exists u v, t = u ++ v /\ strtod (t ++ f) = Some (u, v ++ f).
Proof.
  intros H F. destruct (brk_heads f F) as (F1 & F2 & F3 & F4 & F5). destruct H as [sg k c ds n S W N R|sg k ds n S W R|sg k x ds n S X W N R|ds n W N R].
  - exists (sg ++ c :: ds), []. split; [rewrite app_nil_r; reflexivity|]. apply written_digits in W; [|lia]. rewrite <- app_assoc. pose proof (strtod_at sg k ((c :: ds) ++ f) (c :: ds) f [] f S) as X. rewrite app_nil_r in X. apply X.
    + apply digits_no_sign; [exact W|discriminate].
    + apply mantissa_whole; auto; [apply digits_iff; exact W|discriminate].
    + apply exponent_none; exact F3.
    + intros x r E. eapply decimal_head; [exact W|exact F5|discriminate|exact E].
  - exists (sg ++ 48 :: ds), []. split; [rewrite app_nil_r; reflexivity|]. apply written_digits in W; [|lia]. rewrite <- app_assoc. pose proof (strtod_at sg k ((48 :: ds) ++ f) (48 :: ds) f [] f S) as X. rewrite app_nil_r in X. apply X.
    + apply digits_no_sign; [exact W|discriminate].
    + apply mantissa_whole; auto; [apply digits_iff; exact W|discriminate].
    + apply exponent_none; exact F3.
    + intros x r E. eapply decimal_head; [exact W|exact F5|discriminate|exact E].
  - exists (sg ++ 48 :: x :: ds), []. split; [rewrite app_nil_r; reflexivity|]. destruct (written_number _ _ _ W) as [D _]. rewrite <- app_assoc. unfold strtod. rewrite (sign_take sg k _ S) by reflexivity. cbn [fst snd app]. unfold unsigned_float. replace (hex_mark x) with true by (destruct X as [-> | ->]; reflexivity). cbn [Z.eqb Pos.eqb andb].
    rewrite (mantissa_whole (digit_of 16) ds f D N (brk_digit 16 f ltac:(lia) F) F2). cbn [fst snd]. rewrite (exponent_none _ f F4). cbn [fst snd app]. rewrite !app_nil_r. reflexivity.
  - exists [48], (98 :: ds). split; [reflexivity|]. apply (strtod_at [] 1 ([48] ++ 98 :: ds ++ f) [48] (98 :: ds ++ f) [] (98 :: ds ++ f)).
    + left; auto.
    + reflexivity.
    + apply mantissa_whole; [repeat constructor|discriminate|reflexivity|reflexivity].
    + reflexivity.
    + intros x r E. injection E as <- _. reflexivity.
Qed.
Lemma float_back t f : clean_float t -> brk f -> strtod (t ++ f) = Some (t, f).
Proof.
  intros H F. destruct (brk_heads f F) as (F1 & F2 & F3 & F4 & F5). destruct H as [sg k a b e S A B N L E|sg k a e S A N L E].
  - assert (Xe : exists e', exponent (fun c => Z.eqb c 101 || Z.eqb c 69) (e ++ f) = (e', f) /\ e' = e /\ no_head is_digit (e ++ f)).
    { destruct E as [->|(m & sg' & k' & ds & -> & M & S' & D & Nd)]; [exists []; split; [apply exponent_none; exact F3|auto]|]. exists (m :: sg' ++ ds). split; [eapply exponent_back; eauto; lia|]. split; [reflexivity|]. cbn. unfold is_digit. lia. }
    destruct Xe as (e' & Xe & -> & Fe). replace ((sg ++ a ++ 46 :: b ++ e) ++ f) with (sg ++ (a ++ 46 :: b ++ (e ++ f))) by (rewrite <- !app_assoc; cbn [app]; rewrite <- !app_assoc; reflexivity). replace (sg ++ a ++ 46 :: b ++ e) with (sg ++ (a ++ 46 :: b) ++ e) by (rewrite <- !app_assoc; reflexivity).
    eapply strtod_at; [exact S| |apply mantissa_point; [apply digits_iff; exact A|apply digits_iff; exact B|reflexivity|exact N|exact Fe]|exact Xe|].
    + destruct a as [|c a]; [reflexivity|]. apply Forall_inv in A. cbn. unfold signb. lia.
    + intros x r Ex. destruct a as [|c [|c' a]]; [discriminate|injection Ex as _ <- _; reflexivity|]. injection Ex as _ <- _. apply Forall_inv_tail, Forall_inv in A. unfold hex_mark. lia.
  - destruct E as (m & sg' & k' & ds & -> & M & S' & D & Nd). replace ((sg ++ a ++ m :: sg' ++ ds) ++ f) with (sg ++ (a ++ ((m :: sg' ++ ds) ++ f))) by (rewrite <- !app_assoc; reflexivity).
    eapply strtod_at; [exact S| |apply mantissa_whole; [apply digits_iff; exact A|exact N| |]|eapply exponent_back; eauto; lia|].
    + apply digits_no_sign; auto.
    + cbn. unfold is_digit. lia.
    + destruct M as [-> | ->]; reflexivity.
    + intros x r Ex. eapply decimal_head; [exact A| |exact N|exact Ex]. cbn. unfold hex_mark. lia.
Qed.
(** Digits of an integer at the beginning of a float. *)
Lemma number_bound b ds : 2 <= b <= 16 -> Forall (fun c => digit_of b c = true) ds -> 0 <= number b ds < b ^ Z.of_nat (length ds).
Proof.
  intros B. induction ds as [|c ds IH] using rev_ind; intros D; [cbn; lia|]. apply Forall_app in D. destruct D as [D1 D2]. apply Forall_inv in D2. specialize (IH D1). rewrite number_snoc, app_length. cbn [length]. replace (Z.of_nat (length ds + 1)) with (Z.of_nat (length ds) + 1) by lia. rewrite Z.pow_add_r, Z.pow_1_r by lia.
  destruct (digit_worth b c ltac:(lia) D2) as [W L]. unfold worth in W. assert (0 <= digit_value c) by lia. nia.
Qed.
Lemma short_digits b ds k : 2 <= b <= 10 -> Forall (fun c => digit_of b c = true) ds -> (length ds <= 15)%nat -> k = 1 \/ k = -1 -> in_range (k * number b ds).
Proof.
  intros B D L K. pose proof (number_bound b ds ltac:(lia) D) as [H1 H2]. assert (b ^ Z.of_nat (length ds) <= 10 ^ 15).
  { transitivity (10 ^ Z.of_nat (length ds)); [apply Z.pow_le_mono_l; lia|apply Z.pow_le_mono_r; lia]. }
  unfold in_range. assert (10 ^ 15 < 2 ^ 63) by reflexivity. destruct K as [-> | ->]; lia.
Qed.
Lemma span_short p a x : p (hd 0 (x ++ [0])) = false \/ True -> (length (fst (span p (a ++ x))) <= length a)%nat \/ exists y z, x = y ++ z /\ y <> [] /\ fst (span p (a ++ x)) = a ++ y.
Proof.
  intros _. induction a as [|c a IH]; cbn [app].
  - destruct (span_split p x) as (E & _ & _). destruct (fst (span p x)) as [|y ys] eqn:Ey; [left; cbn; lia|right]. exists (y :: ys), (snd (span p x)). split; [exact E|]. split; [discriminate|reflexivity].
  - cbn [span]. destruct (p c); cbn [fst length]; [|left; lia]. destruct IH as [IH|(y & z & E & N & Ey)]; [left; lia|right]. exists y, z. split; [exact E|]. split; [exact N|]. rewrite Ey. reflexivity.
Qed.
Lemma span_until p a c x : p c = false -> exists u v, a = u ++ v /\ span p (a ++ c :: x) = (u, v ++ c :: x).
Proof.
  intros P. induction a as [|d a (u & v & E & S)]; cbn [app span]; [exists [], []; rewrite P; auto|]. destruct (p d); [|exists [], (d :: a); auto]. exists (d :: u), v. rewrite S. split; [cbn; rewrite <- E; reflexivity|reflexivity].
Qed.
Lemma float_as_int t f : clean_float t -> brk f -> exists o g, parseInt (t ++ f) = Ok (o, g) /\ (length f < length g)%nat.
Proof.
  intros H F. assert (X : exists sg k a c x, t ++ f = sg ++ a ++ c :: x /\ sign_text sg k /\ decimal_digits a /\ (length a <= 15)%nat /\ (c = 46 \/ ((c = 101 \/ c = 69) /\ a <> [])) /\ (length f < length (c :: x))%nat).
  { destruct H as [sg k a b e S A B N L E|sg k a e S A N L (m & sg' & k' & ds & -> & M & S' & D & Nd)].
    - exists sg, k, a, 46, (b ++ e ++ f). split; [rewrite <- !app_assoc; cbn [app]; rewrite <- !app_assoc; reflexivity|]. split; [exact S|]. split; [exact A|]. split; [exact L|]. split; [left; reflexivity|]. cbn [length]. rewrite !app_length. lia.
    - exists sg, k, a, m, (sg' ++ ds ++ f). split; [rewrite <- !app_assoc; cbn [app]; rewrite <- !app_assoc; reflexivity|]. split; [exact S|]. split; [exact A|]. split; [exact L|]. split; [right; split; [exact M|exact N]|]. cbn [length]. rewrite !app_length. lia. }
  destruct X as (sg & k & a & c & x & -> & S & A & L & C & Lf). clear H. rewrite parseInt_start.
  assert (St : int_start (sg ++ a ++ c :: x) = (0, sg ++ a ++ c :: x)).
  { destruct a as [|d a]; [apply (start_plain sg k c x S); lia|]. cbn [app]. apply (start_plain sg k d (a ++ c :: x) S). intros _. destruct a as [|d' a]; cbn [app]; [lia|]. apply Forall_inv_tail, Forall_inv in A. lia. }
  rewrite St. cbn [fst snd]. unfold strtol. assert (Hd : no_head is_space (a ++ c :: x) /\ no_head signb (a ++ c :: x)).
  { destruct a as [|d a]; cbn [app no_head].
    - destruct C as [->|[_ C]]; [split; reflexivity|contradiction C; reflexivity].
    - apply Forall_inv in A. unfold is_space, signb. lia. }
  destruct Hd as [Hd1 Hd2]. rewrite skip_head by (eapply sign_head; eauto). rewrite (sign_take sg k _ S Hd2). cbn [fst snd].
  assert (B : exists b, 2 <= b <= 10 /\ strtol_base 0 (a ++ c :: x) = (b, a ++ c :: x)).
  { destruct a as [|d a]; cbn [app].
    - exists 10. split; [lia|]. apply base_decimal. destruct C as [->|[_ C]]; [discriminate|contradiction C; reflexivity].
    - destruct (Z.eq_dec d 48) as [->|N]; [|exists 10; split; [lia|apply base_decimal; exact N]]. exists 8. split; [lia|]. cbn [strtol_base Z.eqb Pos.eqb]. destruct (a ++ c :: x) as [|y [|h r]] eqn:E; [reflexivity|reflexivity|]. enough (Hm : hex_mark y = false) by (rewrite Hm; reflexivity). destruct a as [|d' a]; injection E as <- _; [unfold hex_mark; lia|]. apply Forall_inv_tail, Forall_inv in A. unfold hex_mark. lia. }
  destruct B as (b & B & Eb). rewrite Eb. cbn [fst snd]. assert (P : digit_of b c = false).
  { unfold digit_of, digit_value, is_digit. destruct C as [->|[[-> | ->] _]]; cbn [Z.leb Z.compare Pos.compare Pos.compare_cont andb]; lia. }
  destruct (span_until (digit_of b) a c x P) as (u & v & Ea & Es). destruct (span_split (digit_of b) (a ++ c :: x)) as (_ & D & _). rewrite Es in *. cbn [fst snd] in *. destruct u as [|u0 u].
  - exists None. eexists. split; [reflexivity|]. rewrite !app_length. lia.
  - exists (Some (k * number b (u0 :: u))), (v ++ c :: x). rewrite (sign_apply sg k _ S). split; [|rewrite app_length; lia]. cbn [fst snd]. rewrite range_ok; [reflexivity|]. apply short_digits; [lia|exact D|rewrite Ea, app_length in L; lia|]. destruct S as [[_ ->]|[[_ ->]|[_ ->]]]; auto.
Qed.
(** Sound. *)
Lemma mantissa_sound p s m g : mantissa p s = Some (m, g) -> s = m ++ g /\ ((exists a b, m = a ++ 46 :: b /\ Forall (fun c => p c = true) a /\ Forall (fun c => p c = true) b /\ a ++ b <> []) \/ (Forall (fun c => p c = true) m /\ m <> [])).
Proof.
  unfold mantissa. destruct (span_split p s) as (E & D & _). destruct (span p s) as [a r]. cbn [fst snd] in *. intros H.
  assert (Wh : (match a with [] => None | _ => Some (a, r) end) = Some (m, g) -> s = m ++ g /\ Forall (fun c => p c = true) m /\ m <> []) by (destruct a; [discriminate|]; intros X; injection X as <- <-; split; [exact E|split; [exact D|discriminate]]).
  destruct r as [|c r]; [destruct (Wh H) as (X & Y); split; [exact X|right; exact Y]|]. destruct (Z.eqb_spec c 46) as [->|]; [|destruct (Wh H) as (X & Y); split; [exact X|right; exact Y]].
  destruct (span_split p r) as (E' & D' & _). destruct (span p r) as [b r']. cbn [fst snd] in *. destruct (a ++ b) as [|y ys] eqn:Ey; [discriminate|]. injection H as <- <-. split; [rewrite E, E', <- app_assoc; reflexivity|]. left. exists a, b. repeat split; auto. rewrite Ey. discriminate.
Qed.
Lemma exponent_sound mark s : s = fst (exponent mark s) ++ snd (exponent mark s) /\ (fst (exponent mark s) = [] \/ exists m sg k ds, fst (exponent mark s) = m :: sg ++ ds /\ mark m = true /\ sign_text sg k /\ decimal_digits ds /\ ds <> []).
Proof.
  destruct s as [|e r]; [split; [reflexivity|left; reflexivity]|]. cbn [exponent]. destruct (mark e) eqn:M; [|split; [reflexivity|left; reflexivity]]. destruct (take_sign_split r) as (k & S & Es). destruct (span_split is_digit (snd (take_sign r))) as (Ed & D & _).
  destruct (fst (span is_digit (snd (take_sign r)))) as [|d ds] eqn:E; [split; [reflexivity|left; reflexivity]|]. cbn [fst snd]. split; [rewrite Es at 1; rewrite Ed at 1; cbn [app]; rewrite <- app_assoc; reflexivity|]. right. exists e, (fst (take_sign r)), k, (d :: ds). repeat split; auto; [apply digits_iff; exact D|discriminate].
Qed.
Lemma float_sound s t f : strtod s = Some (t, f) -> s = t ++ f /\ float_text t.
Proof.
  unfold strtod. destruct (take_sign_split s) as (k & S & Es). destruct (take_sign s) as [sg u]. cbn [fst snd] in *. destruct (unsigned_float u) as [[m g]|] eqn:E; [|discriminate]. intros H. injection H as <- <-. cbn [fst snd].
  assert (Dec : match mantissa is_digit u with None => None | Some m => let e := exponent (fun c => Z.eqb c 101 || Z.eqb c 69) (snd m) in Some (fst m ++ fst e, snd e) end = Some (m, g) -> s = (sg ++ m) ++ g /\ float_text (sg ++ m)).
  { destruct (mantissa is_digit u) as [[x y]|] eqn:Em; [|discriminate]. cbn [fst snd]. intros H. destruct (exponent_sound (fun c => Z.eqb c 101 || Z.eqb c 69) y) as (Ee & He). injection H as <- <-. destruct (mantissa_sound _ _ _ _ Em) as (Ex & Hm). split; [rewrite Es, Ex, Ee at 1; rewrite <- !app_assoc; reflexivity|].
    apply (Fl_decimal sg k); [exact S| |].
    - destruct Hm as [(a & b & -> & A & B & N)|[A N]]; [left; exists a, b; rewrite !digits_iff; auto|right; rewrite digits_iff; auto].
    - destruct He as [->|(n & sg' & k' & ds & -> & M & S' & D & N)]; [left; reflexivity|right]. exists n, sg', k', ds. repeat split; auto. lia. }
  unfold unsigned_float in E. destruct u as [|z [|x r]]; [apply Dec; exact E|apply Dec; exact E|]. destruct (Z.eqb z 48 && hex_mark x) eqn:Ez; [|apply Dec; exact E]. destruct (mantissa (digit_of 16) r) as [[a b]|] eqn:Em; [|apply Dec; exact E]. clear Dec.
  cbn [fst snd] in E. destruct (exponent_sound (fun c => Z.eqb c 112 || Z.eqb c 80) b) as (Ee & He). injection E as <- <-. destruct (mantissa_sound _ _ _ _ Em) as (Ex & Hm). assert (z = 48) by lia. subst z. split; [rewrite Es, Ex, Ee at 1; rewrite <- !app_assoc; cbn [app]; rewrite <- app_assoc; reflexivity|].
  apply (Fl_hex sg k); [exact S|unfold hex_mark in Ez; lia| |].
  - destruct Hm as [(p & q & -> & A & B & N)|[A N]]; [left; exists p, q; rewrite !hex_iff; auto|right; rewrite hex_iff; auto].
  - destruct He as [->|(n & sg' & k' & ds & -> & M & S' & D & N)]; [left; reflexivity|right]. exists n, sg', k', ds. repeat split; auto. lia.
Qed.
(** Numerals. *)
Lemma numeral_back erange r t f v : clean_number erange r t -> brk f -> value r = Some v -> parseNumeral erange (t ++ f) = Ok (Some (v, f)).
Proof.
  intros C F V. unfold parseNumeral, parseFloat. destruct r as [| |z|u| | | |]; cbn [clean_number] in C; try contradiction; cbn [value] in V; injection V as <-.
  - destruct C as [T E]. destruct (int_as_float z t f T F) as (u & w & Et & X). rewrite X. cbn [fst snd]. rewrite (E u w Et). cbn [rbind fst snd]. rewrite (int_back z t f T F). cbn [rbind fst snd]. destruct (Nat.ltb_spec (length (w ++ f)) (length f)); [rewrite app_length in *; lia|reflexivity].
  - destruct C as (-> & T & E). rewrite (float_back t f T F). cbn [fst snd]. rewrite E. cbn [rbind fst snd]. destruct (float_as_int t f T F) as (o & g & X & L). rewrite X. cbn [rbind fst snd]. destruct (Nat.ltb_spec (length f) (length g)); [reflexivity|lia].
Qed.
Lemma numeral_sound erange s v f : no_head is_space s -> parseNumeral erange s = Ok (Some (v, f)) -> exists r t, s = t ++ f /\ any_number erange r t /\ value r = Some v /\ ((exists z, r = RInt z) \/ exists u, r = RFloat u).
Proof.
  intros Hs. unfold parseNumeral, parseFloat. destruct (strtod s) as [[t g]|] eqn:E; cbn [fst snd].
  - destruct (erange t) eqn:Er; [discriminate|]. cbn [rbind fst snd]. destruct (parseInt s) as [[o h]| |] eqn:Ei; try discriminate. cbn [rbind fst snd]. destruct (Nat.ltb (length g) (length h)).
    + intros H. injection H as <- <-. exists (RFloat t), t. destruct (float_sound s t g E) as [X Y]. split; [exact X|]. split; [split; [reflexivity|split; [exact Y|exact Er]]|]. split; [reflexivity|right; exists t; reflexivity].
    + destruct o as [z|]; [|discriminate]. intros H. injection H as <- <-. destruct (int_sound s z h Ei Hs) as (u & X & Y). exists (RInt z), u. split; [exact X|]. split; [exact Y|]. split; [reflexivity|left; exists z; reflexivity].
  - cbn [rbind fst snd]. destruct (parseInt s) as [[o h]| |]; discriminate.
Qed.
Lemma numeral_total erange s : parseNumeral erange s <> OutOfFuel.
Proof.
  unfold parseNumeral, parseFloat. pose proof (parseInt_total s) as T. assert (G : forall f : option (list Z) * list Z, rbind (parseInt s) (fun i => match fst f with None => Ok None | Some t => if Nat.ltb (length (snd f)) (length (snd i)) then Ok (Some (NFloat t, snd f)) else match fst i with Some n => Ok (Some (NInt n, snd i)) | None => Ok None end end) <> OutOfFuel).
  { intros f. destruct (parseInt s) as [[o h]| |]; cbn [rbind]; [|discriminate|contradiction]. destruct (fst f); [|discriminate]. destruct (Nat.ltb _ _); [discriminate|]. destruct (fst (o, h)); discriminate. }
  destruct (strtod s) as [[t g]|]; [destruct (erange _); [discriminate|]|]; cbn [rbind]; apply G.
Qed.
