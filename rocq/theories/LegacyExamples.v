(** Concrete texts. *)
From Coq Require Import Reals ZArith List Bool String Lia Lra Decimal.
From Verif Require Import TextModel TextProofs StringsModel StringsSpec StringsProofs LinesSpec LinesProofs ConfigModel ConfigProofs RamsnapSpec GeomModel GeomProofs GeoModel XcModel LegacyModel LegacySpec LegacyProofs LegacyCommandProofs LegacyShapeProofs LegacyFinalProofs OptModel.
Import ListNotations.
Open Scope Z_scope.

(** Only integers are read by this scanner. *)
Definition digits_scan (l : text) : option (R * text) := r <- extract_size l ;; Some (IZR (fst r), snd r).
Definition zero_failed (_ : text) : R := 0%R.
Definition digits_stod (l : text) : option R := r <- digits_scan l ;; Some (fst r).
Lemma digits_length l : (List.length (snd (take_digits l)) <= List.length l)%nat.
Proof. induction l as [|c l IH]; [cbn; lia|]. cbn [take_digits]. destruct (is_digit c); cbn; lia. Qed.
Lemma digits_consumed l u r : take_digits l = (u, r) -> u <> Nil -> (List.length r < List.length l)%nat.
Proof.
  intros E N. destruct l as [|c l]; [injection E as <- <-; contradiction N; reflexivity|]. cbn [take_digits] in E. destruct (is_digit c); [|injection E as <- <-; contradiction N; reflexivity].
  injection E as _ <-. pose proof (digits_length l). cbn. lia.
Qed.
Lemma size_consumed l z r : extract_size l = Some (z, r) -> (List.length r < List.length l)%nat.
Proof.
  unfold extract_size. destruct (skip_ws_split l) as (b & _ & E & _).
  assert (L : (List.length (skip_ws l) <= List.length l)%nat) by (rewrite E at 2; rewrite app_length; lia). remember (skip_ws l) as l1 eqn:El. clear E El.
  assert (K : exists neg l2, (match l1 with 45 :: r => (true, r) | 43 :: r => (false, r) | _ => (false, l1) end) = (neg, l2) /\ (List.length l2 <= List.length l1)%nat).
  { destruct l1 as [|c l1]; [exists false, []; split; [reflexivity|cbn; lia]|].
    destruct (Z.eq_dec c 45) as [->|N1]; [exists true, l1; split; [reflexivity|cbn; lia]|]. destruct (Z.eq_dec c 43) as [->|N2]; [exists false, l1; split; [reflexivity|cbn; lia]|].
    exists false, (c :: l1). split; [|lia]. destruct c as [|p|p]; try reflexivity. repeat (destruct p as [p|p|]; try reflexivity); (contradiction N1; reflexivity) || (contradiction N2; reflexivity). }
  destruct K as (neg & l2 & -> & L2). destruct (take_digits l2) as [u rest] eqn:T. intros H. assert (N : u <> Nil) by (intros ->; discriminate H).
  assert (R0 : r = rest) by (destruct u; try discriminate H; cbv zeta in H; match type of H with (if ?x then _ else _) = _ => destruct x end; congruence). subst r. pose proof (digits_consumed _ _ _ T N). lia.
Qed.
Lemma digits_scanner : scanner digits_scan.
Proof.
  constructor.
  - intros c l C. unfold digits_scan, extract_size. cbn [skip_ws]. rewrite C. reflexivity.
  - intros l x r. unfold digits_scan. destruct (extract_size l) as [[z r']|] eqn:E; [|discriminate]. intros H. injection H as _ <-. exact (size_consumed l z r' E).
Qed.
Lemma digits_numeral z : 0 <= z < 2 ^ 64 -> numeral digits_scan (decimal z) (IZR z).
Proof.
  intros B. split.
  - split; [apply decimal_nonempty|apply decimal_no_space].
  - intros l S. unfold digits_scan. rewrite extract_decimal; [reflexivity|exact B|]. destruct l as [|c l]; [exact Logic.I|]. cbn in S |- *. destruct (is_digit c) eqn:D; [|reflexivity]. apply digit_not_space in D. congruence.
Qed.

Definition common_text : string := "primaryAxis 1 0 0 secondaryAxis 0 2 0 geometricOrigin 0 0 0 volume 5 ".
Definition common_sections : list (text * list text) :=
  [(str "primaryAxis", map str ["1"; "0"; "0"]); (str "secondaryAxis", map str ["0"; "2"; "0"]); (str "geometricOrigin", map str ["0"; "0"; "0"]); (str "volume", [str "5"])]%string.
Ltac reads := match goal with |- numbers _ _ [] _ => constructor | |- numbers _ _ (_ :: _) _ => eapply one_more_number; [reflexivity|reads] end.
Lemma common_parts required t secs : words_of t (flat_map (fun s => fst s :: snd s) (common_sections ++ secs)) ->
  laid_out (common_fields ++ required ++ [str "namedPoints"] ++ []) (flat_map (fun s => fst s :: snd s) (common_sections ++ secs)) [] (common_sections ++ secs) ->
  NoDup (map fst (common_sections ++ secs)) -> (forall k, In k required -> In k (map fst secs)) -> ~ In (str "namedPoints") (map fst (common_sections ++ secs)) ->
  shape_text digits_scan digits_stod required [] t (common_sections ++ secs) (V3 1 0 0) (V3 0 1 0) vzero 5 [].
Proof.
  intros W L D Rq N.
  assert (V : forall k ws, In (str k, ws) common_sections -> value (common_sections ++ secs) k (spaced ws)) by (intros k ws I; exists ws; split; [apply in_or_app; auto|reflexivity]).
  constructor.
  - eexists. split; [exact W|exact L].
  - exact D.
  - intros k I. rewrite map_app. apply in_or_app. apply in_app_or in I. destruct I as [I|I]; [left|right; exact (Rq k I)]. exact I.
  - eexists. split; [apply V; left; reflexivity|]. exists (V3 1 0 0). split; [eexists; cbn [vx vy vz]; reads|]. assert (E : vnorm (V3 1 0 0) = 1%R) by (unfold vnorm, vnorm2, vdot; cbn; replace (1 * 1 + 0 * 0 + 0 * 0)%R with 1%R by ring; exact sqrt_1).
    rewrite E. split; [|apply vec_ext; cbn; field]. apply Rle_trans with (/ 1)%R; [apply Rinv_le_contravar; [lra|]|rewrite Rinv_1; lra]. apply pow_R1_Rle. lra.
  - eexists. split; [apply V; right; left; reflexivity|]. exists (V3 0 2 0). split; [eexists; cbn [vx vy vz]; reads|].
    assert (E : vnorm (V3 0 2 0) = 2%R) by (unfold vnorm, vnorm2, vdot; cbn; replace (0 * 0 + 2 * 2 + 0 * 0)%R with (2 * 2)%R by ring; apply sqrt_square; lra).
    rewrite E. split; [|apply vec_ext; cbn; field]. apply Rle_trans with (/ 1)%R; [apply Rinv_le_contravar; [lra|]|rewrite Rinv_1; lra]. apply pow_R1_Rle. lra.
  - eexists. split; [apply V; right; right; left; reflexivity|]. eexists. cbn [vx vy vz vzero]. reads.
  - eexists. split; [apply V; right; right; right; left; reflexivity|]. split; [reflexivity|lra].
  - left. auto.
Qed.
(** Something which is not a number among the coordinates *)
Definition spoilt_text : text := str (common_text ++ "spheres 1 0 0 x 1 5 5 5").
Definition spoilt_words : list text := map str ["1"; "0"; "0"; "x"; "1"; "5"; "5"; "5"]%string.
Definition spoilt_sections := common_sections ++ [(str "spheres", spoilt_words)].
Ltac out := let I := fresh in intros I; cbn in I; repeat destruct I as [I|I]; try discriminate I; exact I.
Ltac layout := constructor; [reflexivity|constructor|repeat constructor; cbn [fst snd]; first [solve [out]|cbn; tauto]].
Lemma spoilt_shape : shape_text digits_scan digits_stod [str "spheres"] [] spoilt_text spoilt_sections (V3 1 0 0) (V3 0 1 0) vzero 5 [].
Proof.
  apply common_parts.
  - apply tokenize_words_iff. vm_compute. reflexivity.
  - layout.
  - cbn [map app fst spoilt_sections common_sections]. repeat (constructor; [out|]). constructor.
  - intros k [<-|[]]. left. reflexivity.
  - out.
Qed.
Lemma spoilt_spheres : exists u, value spoilt_sections "spheres" u /\ all_numbers digits_scan zero_failed u [1; 0; 0; 0]%R.
Proof.
  exists (spaced spoilt_words). split; [exists spoilt_words; split; [right; right; right; right; left; reflexivity|reflexivity]|].
  assert (N : forall c l, is_space c = false -> ~ spaces (c :: l)) by (intros c l C S; inversion S; congruence).
  assert (N' : forall c d l, is_space d = false -> ~ spaces (c :: d :: l)) by (intros c d l C S; inversion S as [|? ? _ S']; inversion S'; congruence).
  eapply number_read; [apply N; reflexivity|reflexivity|]. eapply number_read; [apply N'; reflexivity|reflexivity|]. eapply number_read; [apply N'; reflexivity|reflexivity|].
  cbn [snd]. change (0%R) with (zero_failed (str "x 1 5 5 5")). apply (not_a_number digits_scan zero_failed [space] (str "x 1 5 5 5")); [repeat constructor|cbn; discriminate|reflexivity].
Qed.
Lemma spoilt_accepted : exists c, parse_polysphere_geometry digits_scan zero_failed digits_stod spoilt_text = Some (c, [(vzero, 1%R)]).
Proof.
  destruct spoilt_spheres as (u & V & A). destruct (proj2 (polysphere_is digits_scan zero_failed digits_stod digits_scanner spoilt_text [(vzero, 1%R)] (V3 1 0 0) (V3 0 1 0) vzero 5 [])) as (c & E & _); [|exists c; exact E].
  exists spoilt_sections, u, [1; 0; 0; 0]%R. split; [exact spoilt_shape|]. split; [exact V|]. split; [exact A|]. split; [discriminate|]. split; [reflexivity|]. repeat constructor. cbn. lra.
Qed.
Lemma spoilt_tokens : words_of spoilt_text (flat_map (fun s => fst s :: snd s) common_sections ++ str "spheres" :: spoilt_words).
Proof. apply tokenize_words_iff. vm_compute. reflexivity. Qed.
Lemma spheres_dropped : ~ (forall scan failed stod t c data before after, scanner scan -> parse_polysphere_geometry scan failed stod t = Some (c, data) ->
  words_of t (before ++ str "spheres" :: after) -> Forall (fun w => ~ In w (common_fields ++ [str "namedPoints"])) after -> List.length after = (4 * List.length data)%nat).
Proof.
  intros H. destruct spoilt_accepted as (c & E). specialize (H _ _ _ _ _ _ _ _ digits_scanner E spoilt_tokens). discriminate H. repeat (constructor; [out|]). constructor.
Qed.

(** A script *)
Definition script_sample : text := str (common_text ++ "script sphere 1 & move 1 0 0 & sphere 2 & wrap").
Definition script_words : list text := map str ["sphere"; "1"; "&"; "move"; "1"; "0"; "0"; "&"; "sphere"; "2"; "&"; "wrap"]%string.
Definition script_sections := common_sections ++ [(str "script", script_words)].
Definition script_commands : list command := [Sphere 1; Move 1 0 0; Sphere 2; Wrap 2].
Lemma script_shape : shape_text digits_scan digits_stod [str "script"] [] script_sample script_sections (V3 1 0 0) (V3 0 1 0) vzero 5 [].
Proof.
  apply common_parts.
  - apply tokenize_words_iff. vm_compute. reflexivity.
  - layout.
  - cbn [map app fst script_sections common_sections]. repeat (constructor; [out|]). constructor.
  - intros k [<-|[]]. left. reflexivity.
  - out.
Qed.
Ltac command := apply command_iff; reflexivity.
Lemma script_written : exists u, value script_sections "script" u /\ script_text digits_scan u script_commands.
Proof.
  exists (spaced script_words). split; [exists script_words; split; [right; right; right; right; left; reflexivity|reflexivity]|]. split; [discriminate|].
  exists (map str ["sphere 1 "; " move 1 0 0 "; " sphere 2 "; " wrap"]%string). split; [split; [discriminate|]; split; [|reflexivity]; repeat (constructor; [repeat (constructor; [discriminate|]); constructor|]); constructor|].
  repeat (constructor; [command|]). constructor.
Qed.
Lemma script_builds : exists g, build script_commands = Some g.
Proof.
  assert (L1 : Rltb 0 1 = true) by (unfold Rltb; destruct (Rlt_dec 0 1); [reflexivity|lra]). assert (L2 : Rltb 0 2 = true) by (unfold Rltb; destruct (Rlt_dec 0 2); [reflexivity|lra]).
  eexists. unfold build, script_commands. cbn [run_script run_command]. unfold push_checked, xc_sphere. rewrite L1, L2. cbn [obind en_geometry]. reflexivity.
Qed.
(** A chain *)
Definition chain_sample : list R := [1; 0; 0; 0; 0; 0; 2; 0; 2; 2]%R.
Lemma chain_case : chain_of chain_sample [(V3 0 0 1, V3 0 0 1, 1); (V3 0 1 2, V3 0 1 0, 1)]%R.
Proof.
  split; [discriminate|]. exists 1%R, [V3 0 0 0; V3 0 0 2; V3 0 2 2]. split; [lra|]. split; [reflexivity|]. split; [reflexivity|].
  intros [|[|[|i]]] p q s H1 H2 H3; try discriminate H2; injection H1 as <-; injection H2 as <-; injection H3 as <-; cbn; repeat split; apply vec_ext; cbn; ring.
Qed.
(** Commands *)
Lemma superfluous : ~ (forall scan t c name xs ws, scanner scan -> read_command scan t = Some c -> numeric c = Some (name, xs) -> words_of t ws -> List.length ws = S (List.length xs)).
Proof.
  intros H. assert (W : words_of (str "sphere 1 2") (map str ["sphere"; "1"; "2"]%string)) by (apply tokenize_words_iff; reflexivity).
  specialize (H digits_scan (str "sphere 1 2") (Sphere 1) _ _ _ digits_scanner eq_refl eq_refl W). discriminate H.
Qed.
Lemma negative_dup : ~ (forall scan t w, words_of t [str "dup"; 45 :: w] -> read_command scan t = None).
Proof.
  intros H. assert (W : words_of (str "dup -18446744073709551615") [str "dup"; 45 :: str "18446744073709551615"]) by (apply tokenize_words_iff; reflexivity).
  specialize (H digits_scan _ _ W). assert (X : read_command digits_scan (str "dup -18446744073709551615") = Some (Dup 1)) by (vm_compute; reflexivity). congruence.
Qed.
