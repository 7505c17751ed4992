(** Numbers. *)
From Coq Require Import ZArith List Bool Lia ZifyBool.
From Verif Require Import TextModel TextProofs StringsSpec StringsProofs PyonModel PyonSpec PyonLexProofs.
Import ListNotations.
Open Scope Z_scope.

Lemma digit_worth b c : b <= 16 -> digit_of b c = true -> worth c (digit_value c) /\ digit_value c < b.
Proof. unfold digit_of, digit_value, is_digit, worth. intros B H. destruct (Z.leb 48 c && Z.leb c 57) eqn:E1; [lia|]. destruct (Z.leb 97 c && Z.leb c 122) eqn:E2; [lia|]. destruct (Z.leb 65 c && Z.leb c 90) eqn:E3; lia. Qed.
Lemma worth_digit b c v : worth c v -> v < b -> digit_of b c = true /\ digit_value c = v.
Proof. unfold digit_of, digit_value, is_digit, worth. intros W L. destruct (Z.leb 48 c && Z.leb c 57) eqn:E1; [lia|]. destruct (Z.leb 97 c && Z.leb c 122) eqn:E2; [lia|]. destruct (Z.leb 65 c && Z.leb c 90) eqn:E3; lia. Qed.
Lemma number_snoc b ds c : number b (ds ++ [c]) = number b ds * b + digit_value c.
Proof. unfold number. rewrite fold_left_app. reflexivity. Qed.
Lemma number_written b ds : b <= 16 -> Forall (fun c => digit_of b c = true) ds -> written b ds (number b ds).
Proof.
  intros B. induction ds as [|c ds IH] using rev_ind; intros F; [constructor|]. rewrite number_snoc. apply Forall_app in F. destruct F as [F1 F2]. apply Forall_inv in F2. destruct (digit_worth b c B F2). constructor; auto.
Qed.
Lemma written_number b ds n : written b ds n -> Forall (fun c => digit_of b c = true) ds /\ number b ds = n.
Proof.
  induction 1 as [|ds n c v H [F IH] W L]; [split; [constructor|reflexivity]|]. destruct (worth_digit b c v W L) as [D V]. split; [apply Forall_app; split; [exact F|constructor; [exact D|constructor]]|]. rewrite number_snoc, IH, V. reflexivity.
Qed.
Lemma digit_alnum b c : digit_of b c = true -> b <= 16 -> is_name c = true.
Proof. intros H B. destruct (digit_worth b c B H) as [W _]. unfold worth in W. unfold is_name, is_alpha, is_digit. lia. Qed.
Definition brk (f : list Z) : Prop := match f with [] => True | c :: _ => is_name c = false /\ c <> 46 end.
Lemma brk_digit b f : b <= 16 -> brk f -> no_head (digit_of b) f.
Proof. intros B H. destruct f as [|c f]; [exact I|]. cbn in *. destruct H as [H _]. destruct (digit_of b c) eqn:E; [|reflexivity]. rewrite (digit_alnum b c E B) in H. discriminate. Qed.
Definition signb (c : Z) : bool := Z.eqb c 43 || Z.eqb c 45.
Lemma sign_take sg k t : sign_text sg k -> no_head signb t -> take_sign (sg ++ t) = (sg, t).
Proof. intros [[-> _]|[[-> _]|[-> _]]] H; [|reflexivity|reflexivity]. destruct t as [|c t]; [reflexivity|]. cbn in *. unfold signb in H. rewrite H. reflexivity. Qed.
Lemma sign_apply sg k n : sign_text sg k -> (if text_eqb sg [45] then - n else n) = k * n.
Proof. intros [[-> ->]|[[-> ->]|[-> ->]]]; cbn [text_eqb Z.eqb Pos.eqb andb]; lia. Qed.
Lemma take_sign_split s : exists k, sign_text (fst (take_sign s)) k /\ s = fst (take_sign s) ++ snd (take_sign s).
Proof.
  destruct s as [|c s]; [exists 1; split; [left; auto|reflexivity]|]. cbn [take_sign]. destruct (Z.eqb_spec c 43) as [->|]; [exists 1; cbn; split; [right; left; auto|reflexivity]|]. destruct (Z.eqb_spec c 45) as [->|]; [exists (-1); cbn; split; [right; right; auto|reflexivity]|].
  exists 1. cbn. split; [left; auto|reflexivity].
Qed.
Lemma sign_head sg k t : sign_text sg k -> no_head is_space t -> no_head is_space (sg ++ t).
Proof. intros [[-> _]|[[-> _]|[-> _]]] H; [exact H|reflexivity|reflexivity]. Qed.
Lemma skip_head s : no_head is_space s -> skip_ws s = s.
Proof. intros H. apply skip_ws_none. destruct s; [exact I|exact H]. Qed.
Lemma strtol_at w sg k t base b ds f : spaces w -> sign_text sg k -> no_head is_space t -> no_head signb t -> strtol_base base t = (b, ds ++ f) ->
  Forall (fun c => digit_of b c = true) ds -> ds <> [] -> no_head (digit_of b) f -> strtol (w ++ sg ++ t) base = Some (k * number b ds, f).
Proof.
  intros W S H1 H2 B D N F. unfold strtol. rewrite skip_spaces by exact W. rewrite skip_head by (eapply sign_head; eauto). rewrite (sign_take sg k t S H2). cbn [fst snd]. rewrite B. cbn [fst snd]. rewrite (span_app _ ds f D F). cbn [fst snd].
  destruct ds as [|c ds]; [contradiction N; reflexivity|]. rewrite (sign_apply sg k _ S). reflexivity.
Qed.
Lemma name_no_sign c : is_name c = true -> signb c = false /\ is_space c = false.
Proof. unfold is_name, is_alpha, is_digit, signb, is_space. lia. Qed.
Lemma digit_heads b c r : digit_of b c = true -> b <= 16 -> no_head is_space (c :: r) /\ no_head signb (c :: r).
Proof. intros H B. destruct (name_no_sign c (digit_alnum b c H B)). cbn. auto. Qed.
Lemma base_octal ds f : Forall (fun c => digit_of 8 c = true) ds -> brk f -> strtol_base 0 (48 :: ds ++ f) = (8, 48 :: ds ++ f).
Proof.
  intros D F. cbn [strtol_base Z.eqb Pos.eqb]. destruct (ds ++ f) as [|x [|h r]] eqn:E; [reflexivity|reflexivity|]. enough (H : hex_mark x = false) by (rewrite H; reflexivity). destruct ds as [|y ds].
  - cbn in E. subst f. destruct F as [F _]. unfold hex_mark. unfold is_name, is_alpha in F. lia.
  - injection E as -> _. apply Forall_inv in D. destruct (digit_worth 8 x ltac:(lia) D) as [W L]. unfold worth in W. unfold hex_mark. lia.
Qed.
Lemma base_decimal c t : c <> 48 -> strtol_base 0 (c :: t) = (10, c :: t).
Proof. intros N. cbn. apply Z.eqb_neq in N. rewrite N. reflexivity. Qed.
Lemma base_hex x ds f : x = 120 \/ x = 88 -> Forall (fun c => digit_of 16 c = true) ds -> ds <> [] -> strtol_base 0 (48 :: x :: ds ++ f) = (16, ds ++ f).
Proof. intros X D N. destruct ds as [|c ds]; [contradiction N; reflexivity|]. apply Forall_inv in D. cbn [strtol_base app Z.eqb Pos.eqb tl]. rewrite D. destruct X as [-> | ->]; reflexivity. Qed.
(** What is before the digits decides whether a number is binary. *)
Definition int_start (s : list Z) : Z * list Z := match s with a :: b :: c :: r => if Z.eqb a 48 && Z.eqb b 98 then (2, c :: r) else (0, s) | _ => (0, s) end.
Lemma start_plain sg k c t : sign_text sg k -> (c = 48 -> match t with [] => True | x :: _ => x <> 98 end) -> int_start (sg ++ c :: t) = (0, sg ++ c :: t).
Proof.
  intros S H. unfold int_start. destruct S as [[-> _]|[[-> _]|[-> _]]]; cbn [app].
  - destruct t as [|x [|y r]]; [reflexivity|reflexivity|]. destruct (Z.eqb_spec c 48) as [->|]; [|reflexivity]. cbn [andb]. destruct (Z.eqb_spec x 98); [exfalso; apply H; auto|reflexivity].
  - destruct t; reflexivity.
  - destruct t; reflexivity.
Qed.
Lemma parseInt_start s : parseInt s = match strtol (snd (int_start s)) (fst (int_start s)) with
  | None => Ok (None, snd (int_start s)) | Some q => if Z.leb (- 2 ^ 63) (fst q) && Z.ltb (fst q) (2 ^ 63) then Ok (Some (fst q), snd q) else Err end.
Proof. reflexivity. Qed.
Lemma range_ok z : in_range z -> Z.leb (- 2 ^ 63) z && Z.ltb z (2 ^ 63) = true. Proof. unfold in_range. lia. Qed.
Lemma int_back z t f : int_text z t -> brk f -> parseInt (t ++ f) = Ok (Some z, f).
Proof.
  intros H F. rewrite parseInt_start. destruct H as [sg k c ds n S W N R|sg k ds n S W R|sg k x ds n S X W N R|ds n W N R]; destruct (written_number _ _ _ W) as [D V].
  - rewrite <- app_assoc. change ((c :: ds) ++ f) with (c :: ds ++ f). rewrite (start_plain sg k c) by (auto; intros; contradiction). cbn [fst snd]. pose proof (Forall_inv D) as Dc. destruct (digit_heads 10 c (ds ++ f) Dc ltac:(lia)) as [H1 H2].
    pose proof (strtol_at [] sg k (c :: ds ++ f) 0 10 (c :: ds) f (Forall_nil _) S H1 H2 (base_decimal c (ds ++ f) N) D ltac:(discriminate) (brk_digit 10 f ltac:(lia) F)) as E. cbn [app] in E. rewrite E. cbn [fst snd]. rewrite V, range_ok by exact R. reflexivity.
  - rewrite <- app_assoc. change ((48 :: ds) ++ f) with (48 :: ds ++ f). rewrite (start_plain sg k 48); [|exact S|].
    + cbn [fst snd]. destruct (digit_heads 8 48 (ds ++ f) eq_refl ltac:(lia)) as [H1 H2].
      pose proof (strtol_at [] sg k (48 :: ds ++ f) 0 8 (48 :: ds) f (Forall_nil _) S H1 H2 (base_octal ds f (Forall_inv_tail D) F) D ltac:(discriminate) (brk_digit 8 f ltac:(lia) F)) as E. cbn [app] in E. rewrite E. cbn [fst snd]. rewrite V, range_ok by exact R. reflexivity.
    + intros _. destruct ds as [|y ds]; cbn [app].
      * destruct f as [|y f]; [exact I|]. destruct F as [F _]. unfold is_name, is_alpha in F. lia.
      * pose proof (Forall_inv (Forall_inv_tail D)) as Dy. destruct (digit_worth 8 y ltac:(lia) Dy) as [Wy L]. unfold worth in Wy. lia.
  - rewrite <- app_assoc. change ((48 :: x :: ds) ++ f) with (48 :: x :: ds ++ f). rewrite (start_plain sg k 48); [|exact S|intros _; lia]. cbn [fst snd]. destruct (digit_heads 8 48 (x :: ds ++ f) eq_refl ltac:(lia)) as [H1 H2].
    pose proof (strtol_at [] sg k (48 :: x :: ds ++ f) 0 16 ds f (Forall_nil _) S H1 H2 (base_hex x ds f X D N) D N (brk_digit 16 f ltac:(lia) F)) as E. cbn [app] in E. rewrite E. cbn [fst snd]. rewrite V, range_ok by exact R. reflexivity.
  - destruct ds as [|c ds]; [contradiction N; reflexivity|]. cbn [app int_start Z.eqb Pos.eqb andb fst snd]. destruct (digit_heads 2 c (ds ++ f) (Forall_inv D) ltac:(lia)) as [H1 H2].
    pose proof (strtol_at [] [] 1 (c :: ds ++ f) 2 2 (c :: ds) f (Forall_nil _) (or_introl (conj eq_refl eq_refl)) H1 H2 eq_refl D ltac:(discriminate) (brk_digit 2 f ltac:(lia) F)) as E. cbn [app] in E. rewrite E. cbn [fst snd]. rewrite V, Z.mul_1_l, range_ok by exact R. reflexivity.
Qed.
(** Sound. *)
Lemma skip_ws_spaces s : exists w, spaces w /\ s = w ++ skip_ws s. Proof. destruct (skip_ws_split s) as (w & W & E & _). exists w. auto. Qed.
Lemma strtol_base_cases base s : base = 0 \/ base = 2 ->
  strtol_base base s = (base, s) /\ base = 2 \/ base = 0 /\ ((exists x r, s = 48 :: x :: r /\ (x = 120 \/ x = 88) /\ strtol_base 0 s = (16, r)) \/ (exists r, s = 48 :: r /\ strtol_base 0 s = (8, s)) \/ (no_head (Z.eqb 48) s /\ strtol_base 0 s = (10, s))).
Proof.
  intros [-> | ->]; [right|left; split; reflexivity]. split; [reflexivity|]. destruct s as [|z t]; [right; right; split; [exact I|reflexivity]|]. cbn [strtol_base Z.eqb Pos.eqb]. destruct (Z.eqb_spec z 48) as [->|N].
  - destruct t as [|x [|h r]]; [right; left; exists []; auto|right; left; exists [x]; auto|]. destruct (hex_mark x && digit_of 16 h) eqn:E; [left; exists x, (h :: r)|right; left; eexists; auto]. split; [reflexivity|]. split; [unfold hex_mark in E; lia|reflexivity].
  - right. right. split; [apply (proj2 (Z.eqb_neq 48 z)); auto|reflexivity].
Qed.
Lemma int_sound s z f : parseInt s = Ok (Some z, f) -> no_head is_space s -> exists t, s = t ++ f /\ odd_int_text z t.
Proof.
  intros H Hs. rewrite parseInt_start in H. destruct (strtol (snd (int_start s)) (fst (int_start s))) as [[z' f']|] eqn:E; [|discriminate]. cbn [fst snd] in H. destruct (Z.leb (- 2 ^ 63) z' && Z.ltb z' (2 ^ 63)) eqn:R; [|discriminate]. injection H as <- <-. assert (Rz : in_range z') by (unfold in_range; lia). clear R.
  unfold strtol in E. destruct (skip_ws_spaces (snd (int_start s))) as (w & W & Ew). destruct (take_sign_split (skip_ws (snd (int_start s)))) as (k & S & Es). set (q := take_sign (skip_ws (snd (int_start s)))) in *.
  set (b := strtol_base (fst (int_start s)) (snd q)) in *. destruct (span_split (digit_of (fst b)) (snd b)) as (Ed & D & _). set (d := span (digit_of (fst b)) (snd b)) in *. destruct (fst d) as [|c ds] eqn:Ec; [discriminate|]. injection E as E1 E2. rewrite (sign_apply (fst q) k _ S) in E1.
  assert (St : (fst (int_start s) = 2 /\ s = 48 :: 98 :: snd (int_start s)) \/ (int_start s = (0, s))).
  { unfold int_start. destruct s as [|a [|a' [|a'' r]]]; auto. destruct (Z.eqb_spec a 48) as [->|]; [|auto]. destruct (Z.eqb_spec a' 98) as [->|]; [|auto]. left. auto. }
  destruct St as [[B0 Es0]|B0].
  - assert (Eb : b = (2, snd q)) by (unfold b; rewrite B0; reflexivity). rewrite Eb in *. cbn [fst snd] in *. exists (48 :: 98 :: w ++ fst q ++ c :: ds). split.
    + rewrite Es0 at 1. rewrite Ew, Es, Ed, E2. cbn [app]. rewrite <- !app_assoc. reflexivity.
    + rewrite <- E1. apply O_binary; [exact W|exact S|apply number_written; [lia|exact D]|discriminate|rewrite E1; exact Rz].
  - rewrite B0 in *. cbn [fst snd] in *. rewrite skip_head in * by exact Hs. assert (w = []) by (apply (f_equal (@length Z)) in Ew; rewrite app_length in Ew; destruct w; [reflexivity|cbn in Ew; lia]). subst w.
    destruct (strtol_base_cases 0 (snd q) (or_introl eq_refl)) as [[_ X]|[_ [(x & r & Eq & X & Eb)|[(r & Eq & Eb)|[Nh Eb]]]]]; [discriminate| | |]; assert (Bb : b = strtol_base 0 (snd q)) by (unfold b; rewrite B0; reflexivity); rewrite Eb in Bb; clearbody d; clearbody b; subst b; cbn [fst snd] in *.
    + exists (fst q ++ 48 :: x :: c :: ds). split; [rewrite Es, Eq, Ed, E2, <- app_assoc; reflexivity|]. rewrite <- E1. apply O_int. apply I_hex; [exact S|exact X|apply number_written; [lia|exact D]|discriminate|rewrite E1; exact Rz].
    + exists (fst q ++ c :: ds). split; [rewrite Es, Ed, E2, <- app_assoc; reflexivity|]. rewrite <- E1. apply O_int. assert (c = 48) by (rewrite Eq in Ed; injection Ed as X _; auto). subst c. apply I_octal; [exact S|apply number_written; [lia|exact D]|rewrite E1; exact Rz].
    + exists (fst q ++ c :: ds). split; [rewrite Es, Ed, E2, <- app_assoc; reflexivity|]. rewrite <- E1. apply O_int. apply I_decimal; [exact S|apply number_written; [lia|exact D]| |rewrite E1; exact Rz]. intros ->. rewrite Ed in Nh. cbn in Nh. discriminate.
Qed.
Lemma parseInt_total s : parseInt s <> OutOfFuel.
Proof. rewrite parseInt_start. destruct (strtol _ _) as [q|]; [|discriminate]. destruct (_ && _); discriminate. Qed.
Lemma parseInt_length s q : parseInt s = Ok q -> (length (snd q) <= length s)%nat.
Proof.
  rewrite parseInt_start. assert (L : (length (snd (int_start s)) <= length s)%nat) by (unfold int_start; destruct s as [|a [|b [|c r]]]; cbn; auto; destruct (_ && _); cbn; lia).
  destruct (strtol _ _) as [[z f]|] eqn:E; [|intros H; injection H as <-; exact L]. cbn [fst snd]. destruct (_ && _); [|discriminate]. intros H. injection H as <-. cbn [snd]. unfold strtol in E.
  destruct (skip_ws_spaces (snd (int_start s))) as (w & _ & Ew). destruct (take_sign_split (skip_ws (snd (int_start s)))) as (k & _ & Es). set (q := take_sign (skip_ws (snd (int_start s)))) in *. set (b := strtol_base (fst (int_start s)) (snd q)) in *.
  destruct (span_split (digit_of (fst b)) (snd b)) as (Ed & _). set (d := span (digit_of (fst b)) (snd b)) in *. assert (Lb : (length (snd b) <= length (snd q))%nat).
  { unfold b, strtol_base. destruct (Z.eqb _ 0); [|auto]. destruct (snd q) as [|z0 t]; [auto|]. destruct (Z.eqb z0 48); [|auto]. destruct t as [|x [|h r]]; auto. destruct (_ && _); cbn; lia. }
  destruct (fst d) as [|c ds]; [discriminate|]. injection E as _ <-. apply (f_equal (@length Z)) in Ew, Es, Ed. rewrite app_length in *. lia.
Qed.
