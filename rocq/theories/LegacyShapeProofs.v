(** Shapes in old input files. *)
From Coq Require Import Reals ZArith List Bool String Lia Lra.
From Verif Require Import TextModel TextProofs StringsModel StringsSpec StringsProofs LinesSpec ConfigModel ConfigProofs RamsnapSpec GeomModel GeomProofs GeoModel XcModel LegacyModel LegacySpec LegacyProofs LegacyCommandProofs OptModel.
Import ListNotations.
Open Scope Z_scope.

Section Shapes.
Variables (scan : text -> option (R * text)) (failed : text -> R) (stod : text -> option R).
Hypothesis sc : scanner scan.
Notation numbers := (numbers scan).
Notation skips := (sc_skips scan sc).

Lemma scan_trimmed t : scan (skip_ws t) = scan t.
Proof. destruct (skip_ws_split t) as (b & B & E & _). rewrite E at 2. symmetry. exact (scan_skip scan skips b _ B). Qed.
Lemma skip_length t : (List.length (skip_ws t) <= List.length t)%nat.
Proof. destruct (skip_ws_split t) as (b & _ & E & _). rewrite E at 2. rewrite app_length. lia. Qed.
Lemma spaces_iff t : spaces t <-> skip_ws t = [].
Proof. split; [apply skip_all|]. intros E. destruct (skip_ws_split t) as (b & B & Q & _). rewrite E, app_nil_r in Q. subst. exact B. Qed.

(** *** All the numbers *)
Notation loop := (tokens_loop R scan failed).
Lemma numbers_loop t xs : all_numbers scan failed t xs -> forall fuel, (List.length (skip_ws t) <= fuel)%nat -> loop fuel (skip_ws t) = Some xs.
Proof.
  induction 1 as [t S|t x r xs N E A IH|b t B N E]; intros fuel F.
  - rewrite (skip_all t S). destruct fuel; reflexivity.
  - rewrite <- scan_trimmed in E. rewrite spaces_iff in N. destruct (skip_ws t) as [|c l]; [contradiction N; reflexivity|]. destruct fuel as [|fuel]; [cbn in F; lia|].
    cbn [tokens_loop]. rewrite E, IH; [reflexivity|]. pose proof (sc_consumes scan sc _ _ _ E). pose proof (skip_length r). lia.
  - rewrite skip_spaces in * by exact B. destruct t as [|c t]; [contradiction N; exact Logic.I|]. cbn in N. destruct (is_space c) eqn:C; [contradiction N; reflexivity|].
    cbn [skip_ws] in *. rewrite C in *. destruct fuel as [|fuel]; [cbn in F; lia|]. cbn [tokens_loop]. rewrite E. reflexivity.
Qed.
Lemma all_numbers_exist : forall n t, (List.length t <= n)%nat -> exists xs, all_numbers scan failed t xs.
Proof.
  induction n as [|n IH]; intros t L; [destruct t; [exists []; constructor; constructor|cbn in L; lia]|].
  destruct (skip_ws t) as [|c l] eqn:K; [exists []; constructor; apply spaces_iff; exact K|]. destruct (scan t) as [[x r]|] eqn:E.
  - destruct (IH r) as (xs & A); [pose proof (sc_consumes scan sc _ _ _ E); lia|]. exists (x :: xs). apply (number_read scan failed t x r xs); [rewrite spaces_iff; congruence|exact E|exact A].
  - exists [failed (c :: l)]. destruct (skip_ws_split t) as (b & B & Q & H). rewrite K in *. rewrite Q. constructor; [exact B|cbn; rewrite (H c l eq_refl); discriminate|]. rewrite <- K, scan_trimmed. exact E.
Qed.
Lemma all_numbers_iff t xs : tokenize R scan failed t = Some xs <-> all_numbers scan failed t xs.
Proof.
  assert (X : forall xs, all_numbers scan failed t xs -> tokenize R scan failed t = Some xs) by (intros ys A; exact (numbers_loop t ys A _ (Nat.le_refl _))).
  split; [|apply X]. intros E. destruct (all_numbers_exist _ t (Nat.le_refl _)) as (ys & A). rewrite (X ys A) in E. injection E as <-. exact A.
Qed.
Lemma numerals_all : forall ws xs t, Forall2 (numeral scan) ws xs -> words_of t ws -> all_numbers scan failed t xs.
Proof.
  intros ws xs t F. revert t. induction F as [|w x ws xs (Wl & N) F IH]; intros t W.
  - inversion W; subst. constructor. assumption.
  - inversion W as [|b w' r ws' B W' S R]; subst. apply (number_read scan failed _ x r xs); [|rewrite (scan_skip scan skips) by exact B; apply N; exact S|exact (IH r R)].
    intros Sp. apply Forall_app in Sp. destruct Sp as (_ & Sp). apply Forall_app in Sp. destruct Sp as (Sp & _). destruct Wl as (Ne & Wl). destruct w as [|c w]; [apply Ne; reflexivity|]. inversion Sp; inversion Wl; subst. congruence.
Qed.

(** *** Vectors *)
Lemma vector_from_iff t v r : parse_vector_from scan t = Some (v, r) <-> numbers t [vx v; vy v; vz v] r.
Proof.
  unfold parse_vector_from. split.
  - destruct (scan t) as [[x r1]|] eqn:E1; [|discriminate]. cbn [obind snd fst]. destruct (scan r1) as [[y r2]|] eqn:E2; [|discriminate]. cbn [obind snd fst].
    destruct (scan r2) as [[z r3]|] eqn:E3; [|discriminate]. cbn [obind snd fst]. intros X. injection X as <- <-. econstructor; [exact E1|econstructor; [exact E2|econstructor; [exact E3|constructor]]].
  - intros N. inversion N as [|? ? r1 ? ? E1 N1]; subst. inversion N1 as [|? ? r2 ? ? E2 N2]; subst. inversion N2 as [|? ? r3 ? ? E3 N3]; subst. inversion N3; subst.
    rewrite E1. cbn [obind snd fst]. rewrite E2. cbn [obind snd fst]. rewrite E3. cbn [obind snd fst]. destruct v; reflexivity.
Qed.
Lemma vector_iff t v : parse_vector scan t = Some v <-> vector_text scan t v.
Proof.
  unfold parse_vector, vector_text. split.
  - destruct (parse_vector_from scan t) as [[u r]|] eqn:E; [|discriminate]. intros X. injection X as <-. exists r. apply vector_from_iff. exact E.
  - intros (r & N). apply vector_from_iff in N. rewrite N. reflexivity.
Qed.
Lemma axis_iff t u : parse_axis scan t = Some u <-> axis_text scan t u.
Proof.
  assert (P : (0 < / 10 ^ 8)%R) by (apply Rinv_0_lt_compat, pow_lt; lra).
  assert (X : forall v, (/ 10 ^ 8 <= vnorm v)%R -> normalized v = Some (vscale (/ vnorm v) v)).
  { intros v H. unfold normalized, Reqb. destruct (Req_EM_T (vnorm2 v) 0) as [Z|Z]; [|reflexivity]. exfalso. unfold vnorm in H. rewrite Z, sqrt_0 in H. lra. }
  unfold parse_axis, axis_text. split.
  - destruct (parse_vector scan t) as [v|] eqn:E; [|discriminate]. cbn [obind]. unfold Rleb. destruct (Rle_dec (/ 10 ^ 8) (vnorm v)) as [H|H]; [|discriminate]. rewrite (X v H). intros Q. injection Q as <-.
    exists v. split; [apply vector_iff; exact E|]. split; [exact H|reflexivity].
  - intros (v & V & H & ->). apply vector_iff in V. rewrite V. cbn [obind]. unfold Rleb. destruct (Rle_dec (/ 10 ^ 8) (vnorm v)) as [H'|H']; [exact (X v H)|contradiction].
Qed.

(** *** Points *)
Lemma numbers_shrink t xs r : numbers t xs r -> (List.length r <= List.length t)%nat.
Proof. induction 1 as [t|t x r xs r' E N IH]; [lia|]. pose proof (sc_consumes scan sc _ _ _ E). lia. Qed.
Lemma point_iff t n p r : (w <- extract_word t ;; v <- parse_vector_from scan (snd w) ;; Some (fst w, fst v, snd v)) = Some (n, p, r) <-> point_text scan t n p r.
Proof.
  unfold point_text. split.
  - destruct (extract_word t) as [[w t']|] eqn:E; [|discriminate]. cbn [obind snd fst]. destruct (parse_vector_from scan t') as [[v r']|] eqn:V; [|discriminate]. cbn [obind snd fst]. intros X. injection X as <- <- <-.
    apply extract_word_iff in E. destruct E as (b & B & -> & W & S). exists b, t'. apply vector_from_iff in V. auto.
  - intros (b & t' & -> & B & W & S & N). rewrite (extract_word_is b n t' B W S). cbn [obind snd fst]. apply vector_from_iff in N. rewrite N. reflexivity.
Qed.
Lemma point_shrink t n p r : point_text scan t n p r -> (List.length r < List.length t)%nat.
Proof.
  intros (b & t' & -> & B & (N & _) & S & Nu). pose proof (numbers_shrink _ _ _ Nu). rewrite !app_length. destruct n; [contradiction N; reflexivity|]. cbn. lia.
Qed.
Lemma points_skip fuel l : points_loop scan fuel (skip_ws l) = points_loop scan fuel l.
Proof. destruct fuel as [|fuel]; [reflexivity|]. cbn [points_loop]. unfold extract_word. rewrite skip_idem. reflexivity. Qed.
Lemma points_step fuel l : points_loop scan (S fuel) l =
  match (w <- extract_word l ;; v <- parse_vector_from scan (snd w) ;; Some (fst w, fst v, snd v)) with
  | Some (n, p, r) => match skip_ws r with [] => Some [(n, p)] | _ => rest <- points_loop scan fuel r ;; Some ((n, p) :: rest) end
  | None => None
  end.
Proof.
  cbn [points_loop]. destruct (extract_word l) as [[w t']|]; [|reflexivity]. cbn [obind snd fst]. destruct (parse_vector_from scan t') as [[v r]|]; [|reflexivity]. cbn [obind snd fst].
  destruct (skip_ws r) as [|c l'] eqn:K; [reflexivity|]. rewrite <- K, points_skip. reflexivity.
Qed.
Lemma points_loop_is t ps : points_text scan t ps -> forall fuel, (List.length t < fuel)%nat -> points_loop scan fuel t = Some ps.
Proof.
  induction 1 as [t n p r P S|t n p r ps P S A IH]; intros fuel F; (destruct fuel as [|fuel]; [lia|]); rewrite points_step; pose proof P as P'; apply point_iff in P'; rewrite P'.
  - rewrite (skip_all r S). reflexivity.
  - rewrite spaces_iff in S. destruct (skip_ws r); [contradiction S; reflexivity|]. rewrite IH; [reflexivity|]. pose proof (point_shrink _ _ _ _ P). lia.
Qed.
Lemma points_loop_only : forall fuel t ps, points_loop scan fuel t = Some ps -> points_text scan t ps.
Proof.
  induction fuel as [|fuel IH]; intros t ps E; [discriminate E|]. rewrite points_step in E.
  destruct (w <- extract_word t ;; v <- parse_vector_from scan (snd w) ;; Some (fst w, fst v, snd v)) as [[[n p] r]|] eqn:P; [|discriminate E]. apply point_iff in P.
  destruct (skip_ws r) as [|c l] eqn:K.
  - injection E as <-. apply (last_point scan t n p r P). apply spaces_iff. exact K.
  - destruct (points_loop scan fuel r) as [rest|] eqn:Q; [|discriminate E]. injection E as <-. apply (more_points scan t n p r rest P); [rewrite spaces_iff; congruence|exact (IH _ _ Q)].
Qed.
Lemma points_iff t ps : parse_named_points scan t = Some ps <-> points_text scan t ps.
Proof. split; [apply points_loop_only|]. intros P. apply points_loop_is; [exact P|lia]. Qed.

(** *** What all shapes have *)
Lemma has_all_iff m fields : has_all_fields m fields = true <-> forall k, In k fields -> exists v, lookup k m = Some v.
Proof.
  unfold has_all_fields. rewrite forallb_forall. split; intros H k I; specialize (H k I).
  - rewrite has_lookup in H. destruct (lookup k m) as [v|]; [exists v; reflexivity|discriminate H].
  - rewrite has_lookup. destruct H as (v & ->). reflexivity.
Qed.
Definition agrees (m : list (text * text)) (secs : list (text * list text)) : Prop := forall k v, lookup k m = Some v <-> In (k, v) (contents [] secs).
Lemma agrees_value m secs k t : agrees m secs -> lookup (str k) m = Some t <-> value secs k t.
Proof.
  intros A. rewrite (A (str k) t). unfold value, contents. cbn [app]. rewrite in_map_iff. split.
  - intros ((f, ws) & E & I). injection E as E1 E2. cbn in E1. subst f. exists ws. auto.
  - intros (ws & I & ->). exists (str k, ws). auto.
Qed.
Lemma agrees_names m secs k : agrees m secs -> (exists v, lookup k m = Some v) <-> In k (map fst secs).
Proof.
  intros A. rewrite in_map_iff. split.
  - intros (v & E). apply A in E. cbn [contents app] in E. apply in_map_iff in E. destruct E as ((f, ws) & E & I). injection E as E1 E2. exists (f, ws). auto.
  - intros ((f, ws) & E & I). cbn in E. subst f. exists (spaced ws). apply A. cbn [contents app]. apply in_map_iff. exists (k, ws). auto.
Qed.
Variables (required optional : list text).
Hypothesis named : ~ In [] (required ++ optional).
Notation all_fields := (common_fields ++ required ++ [str "namedPoints"] ++ optional).
Notation parse_shape t := (parse_generic_shape_traits scan stod t required optional).
Lemma no_empty : ~ In [] all_fields.
Proof.
  intros I. apply in_app_or in I. destruct I as [I|I]; [cbn in I; repeat destruct I as [I|I]; try discriminate I; exact I|]. apply in_app_or in I. destruct I as [I|I]; [apply named, in_or_app; auto|].
  cbn in I. destruct I as [I|I]; [discriminate I|]. apply named, in_or_app. auto.
Qed.
Definition rest_of (m : list (text * text)) : option common :=
  if has_all_fields m (common_fields ++ required) then
    pat <- lookup (str "primaryAxis") m ;; pa <- parse_axis scan pat ;;
    sat <- lookup (str "secondaryAxis") m ;; sa <- parse_axis scan sat ;;
    got <- lookup (str "geometricOrigin") m ;; go <- parse_vector scan got ;;
    vt <- lookup (str "volume") m ;; volume <- stod vt ;;
    if Rltb 0 volume then
      match lookup (str "namedPoints") m with
      | None => Some (Common m pa sa go volume [])
      | Some t => ps <- parse_named_points scan t ;; Some (Common m pa sa go volume ps)
      end
    else None
  else None.
Lemma parse_shape_unfold t : parse_shape t = (tokens <- tokenize_words t ;; m <- parseFields all_fields tokens ;; rest_of m).
Proof. unfold parse_generic_shape_traits. change (str "namedPoints" :: optional) with ([str "namedPoints"] ++ optional). rewrite <- app_assoc. reflexivity. Qed.
Lemma generic_only t c : parse_shape t = Some c ->
  exists secs, shape_text scan stod required optional t secs (co_primary c) (co_secondary c) (co_origin c) (co_volume c) (co_points c) /\ agrees (co_fields c) secs.
Proof.
  rewrite parse_shape_unfold. destruct (tokenize_words t) as [ws|] eqn:T; [|discriminate]. cbn [obind]. apply tokenize_words_iff in T. pose proof (words_of_words _ _ T) as Ww.
  destruct (layout_exists all_fields ws) as (lead & secs & Lo). destruct (fields_spec _ _ _ _ Ww Lo) as (Fa & Fb).
  destruct (parseFields all_fields ws) as [m|] eqn:Pf; [|discriminate]. cbn [obind].
  assert (Al : lead = [] /\ NoDup (map fst secs)).
  { destruct lead as [|w lead].
    - split; [reflexivity|]. destruct (ListDec.NoDup_dec (list_eq_dec Z.eq_dec) (map fst secs)) as [D|D]; [exact D|]. assert (X : Some m = None) by (apply Fb; intros (D' & _); exact (D D')). discriminate X.
    - assert (X : Some m = None) by (apply Fb; intros (_ & H); apply no_empty, H; discriminate). discriminate X. }
  destruct Al as (-> & D). destruct Fa as (m' & E & A); [split; [exact D|]; intros H; contradiction H; reflexivity|]. injection E as <-.
  unfold rest_of. destruct (has_all_fields m (common_fields ++ required)) eqn:H; [|discriminate]. pose proof (proj1 (has_all_iff _ _) H) as Ha.
  destruct (lookup (str "primaryAxis") m) as [pat|] eqn:L1; [|discriminate]. cbn [obind]. destruct (parse_axis scan pat) as [pa|] eqn:P1; [|discriminate]. cbn [obind].
  destruct (lookup (str "secondaryAxis") m) as [sat|] eqn:L2; [|discriminate]. cbn [obind]. destruct (parse_axis scan sat) as [sa|] eqn:P2; [|discriminate]. cbn [obind].
  destruct (lookup (str "geometricOrigin") m) as [got|] eqn:L3; [|discriminate]. cbn [obind]. destruct (parse_vector scan got) as [go|] eqn:P3; [|discriminate]. cbn [obind].
  destruct (lookup (str "volume") m) as [vt|] eqn:L4; [|discriminate]. cbn [obind]. destruct (stod vt) as [volume|] eqn:P4; [|discriminate]. cbn [obind].
  destruct (Rltb 0 volume) eqn:V; [|discriminate]. assert (V' : (0 < volume)%R) by (unfold Rltb in V; destruct (Rlt_dec 0 volume); [assumption|discriminate V]).
  assert (K : forall ps, (match lookup (str "namedPoints") m with None => ps = [] | Some u => points_text scan u ps end) -> shape_text scan stod required optional t secs pa sa go volume ps).
  { intros ps Hp. constructor.
    - exists ws. auto.
    - exact D.
    - intros k I. apply (agrees_names m secs k A). exact (Ha k I).
    - exists pat. split; [apply (agrees_value m); assumption|apply axis_iff; assumption].
    - exists sat. split; [apply (agrees_value m); assumption|apply axis_iff; assumption].
    - exists got. split; [apply (agrees_value m); assumption|apply vector_iff; assumption].
    - exists vt. split; [apply (agrees_value m); assumption|auto].
    - destruct (lookup (str "namedPoints") m) as [u|] eqn:L5.
      + right. exists u. split; [apply (agrees_value m); assumption|exact Hp].
      + left. split; [|exact Hp]. intros I. apply (agrees_names m secs _ A) in I. destruct I as (v & I). congruence. }
  destruct (lookup (str "namedPoints") m) as [u|].
  - destruct (parse_named_points scan u) as [ps|] eqn:P5; [|discriminate]. intros X. injection X as <-. exists secs. split; [|exact A]. apply K. apply points_iff. exact P5.
  - intros X. injection X as <-. exists secs. split; [|exact A]. apply K. reflexivity.
Qed.
Lemma generic_is t secs pa sa o v ps : shape_text scan stod required optional t secs pa sa o v ps ->
  exists c, parse_shape t = Some c /\ holds c pa sa o v ps /\ agrees (co_fields c) secs.
Proof.
  intros [(ws & W & Lo) D Rq (u1 & V1 & A1) (u2 & V2 & A2) (u3 & V3' & A3) (u4 & V4 & A4 & A4') Hp].
  rewrite parse_shape_unfold. pose proof (words_of_words _ _ W) as Ww. apply tokenize_words_iff in W. rewrite W. cbn [obind].
  destruct (fields_spec _ _ _ _ Ww Lo) as (Fa & _). destruct Fa as (m & E & A); [split; [exact D|]; intros H; contradiction H; reflexivity|]. rewrite E. cbn [obind].
  unfold rest_of. replace (has_all_fields m (common_fields ++ required)) with true; [|symmetry; apply has_all_iff; intros k I; apply (agrees_names m secs k A); exact (Rq k I)].
  apply (agrees_value m secs _ _ A) in V1, V2, V3', V4. apply axis_iff in A1, A2. apply vector_iff in A3.
  rewrite V1. cbn [obind]. rewrite A1. cbn [obind]. rewrite V2. cbn [obind]. rewrite A2. cbn [obind]. rewrite V3'. cbn [obind]. rewrite A3. cbn [obind]. rewrite V4. cbn [obind]. rewrite A4. cbn [obind].
  replace (Rltb 0 v) with true; [|unfold Rltb; destruct (Rlt_dec 0 v); [reflexivity|contradiction]].
  destruct Hp as [(N & ->)|(u & Vu & Pu)].
  - destruct (lookup (str "namedPoints") m) as [w|] eqn:Q.
    + exfalso. apply N. apply (agrees_names m secs _ A). exists w. exact Q.
    + eexists. split; [reflexivity|]. split; [repeat split|exact A].
  - apply (agrees_value m secs _ _ A) in Vu. rewrite Vu. apply points_iff in Pu. rewrite Pu. cbn [obind]. eexists. split; [reflexivity|]. split; [repeat split|exact A].
Qed.
End Shapes.
