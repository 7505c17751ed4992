(** Words, fields and commands. *)
From Coq Require Import Reals ZArith List Bool String Lia.
From Verif Require Import TextModel TextProofs StringsModel StringsSpec StringsProofs ConfigModel ConfigProofs RamsnapSpec GeomModel GeoModel XcModel LegacyModel LegacySpec OptModel.
Import ListNotations.
Open Scope Z_scope.

Lemma eqb_eq a b : text_eqb a b = true <-> a = b. Proof. apply text_eqb_eq. Qed.
Lemma eqb_false a b : text_eqb a b = false <-> a <> b.
Proof. rewrite <- eqb_eq. destruct (text_eqb a b); split; intros H; congruence. Qed.

(** *** Words *)
Lemma take_word_all w r : Forall (fun c => is_space c = false) w -> stops r -> take_word (w ++ r) = (w, r).
Proof.
  induction 1 as [|c w C W IH]; intros S.
  - destruct r as [|c r]; [reflexivity|]. cbn in S |- *. rewrite S. reflexivity.
  - cbn [app take_word]. rewrite C, (IH S). reflexivity.
Qed.
Lemma extract_word_is b w r : spaces b -> word_like w -> stops r -> extract_word (b ++ w ++ r) = Some (w, r).
Proof.
  intros B (N & W) S. unfold extract_word. rewrite skip_spaces by exact B.
  assert (E : skip_ws (w ++ r) = w ++ r) by (destruct w as [|c w]; [contradiction N; reflexivity|]; inversion W as [|? ? C]; subst; cbn; rewrite C; reflexivity).
  rewrite E, (take_word_all w r W S). cbn [fst]. destruct w; [contradiction N; reflexivity|reflexivity].
Qed.
Lemma take_word_split l : exists w r, take_word l = (w, r) /\ l = w ++ r /\ Forall (fun c => is_space c = false) w /\ stops r.
Proof.
  induction l as [|c l (w & r & E & L & W & S)]; [exists [], []; cbn; auto|]. cbn [take_word]. destruct (is_space c) eqn:C.
  - exists [], (c :: l). cbn. auto.
  - exists (c :: w), r. rewrite E. subst l. cbn. auto.
Qed.
Lemma extract_word_iff l w r : extract_word l = Some (w, r) <-> exists b, spaces b /\ l = b ++ w ++ r /\ word_like w /\ stops r.
Proof.
  split; [|intros (b & B & -> & W & S); apply extract_word_is; assumption]. unfold extract_word. destruct (skip_ws_split l) as (b & B & E & _).
  destruct (take_word_split (skip_ws l)) as (w' & r' & T & L & W & S). rewrite T. cbn [fst]. destruct w' as [|c w']; [discriminate|]. intros X. injection X as <- <-.
  exists b. split; [exact B|]. rewrite E at 1. rewrite L. split; [reflexivity|]. split; [split; [discriminate|exact W]|exact S].
Qed.
Lemma words_add b t ws : spaces b -> words_of t ws -> words_of (b ++ t) ws.
Proof.
  intros B W. inversion W as [b' B' E1 E2|b' w r ws' B' Wl S R E1 E2]; subst.
  - constructor. apply Forall_app; auto.
  - rewrite app_assoc. constructor; try assumption. apply Forall_app; auto.
Qed.
Lemma skip_all b : spaces b -> skip_ws b = []. Proof. induction 1 as [|c b C B IH]; [reflexivity|]. cbn. rewrite C. exact IH. Qed.
Notation words_loop := (tokens_loop text extract_word (fun _ => [])).
Lemma words_loop_is t ws : words_of t ws -> forall fuel, (List.length (skip_ws t) <= fuel)%nat -> words_loop fuel (skip_ws t) = Some ws.
Proof.
  induction 1 as [b B|b w r ws B W S R IH]; intros fuel F; [rewrite (skip_all b B); destruct fuel; reflexivity|].
  assert (E : skip_ws (b ++ w ++ r) = w ++ r).
  { rewrite skip_spaces by exact B. destruct W as (N & W). destruct w as [|c w]; [contradiction N; reflexivity|]. inversion W as [|? ? C]; subst. cbn. rewrite C. reflexivity. }
  rewrite E in *. destruct W as (N & W). destruct w as [|c w]; [contradiction N; reflexivity|]. destruct fuel as [|fuel]; [cbn in F; lia|].
  cbn [app tokens_loop]. rewrite (extract_word_is [] (c :: w) r (Forall_nil _) (conj N W) S : extract_word (c :: w ++ r) = _). rewrite IH; [reflexivity|].
  destruct (skip_ws_split r) as (b' & _ & E' & _). cbn in F. rewrite app_length in F. rewrite E', app_length in F. lia.
Qed.
Lemma words_exist : forall n t, (List.length t <= n)%nat -> exists ws, words_of t ws.
Proof.
  induction n as [|n IH]; intros t L; [destruct t; [exists []; constructor; constructor|cbn in L; lia]|].
  destruct (extract_word t) as [[w r]|] eqn:E.
  - apply extract_word_iff in E. destruct E as (b & B & -> & W & S). destruct (IH r) as (ws & R).
    { rewrite !app_length in L. destruct W as (N & _). destruct w; [contradiction N; reflexivity|]. cbn in L. lia. }
    exists (w :: ws). constructor; assumption.
  - exists []. constructor. destruct (skip_ws_split t) as (b & B & E' & H). unfold extract_word in E. destruct (skip_ws t) as [|c l] eqn:K; [rewrite app_nil_r in E'; subst; exact B|].
    pose proof (H c l eq_refl) as C. cbn [take_word] in E. rewrite C in E. discriminate E.
Qed.
Lemma tokenize_words_iff t ws : tokenize_words t = Some ws <-> words_of t ws.
Proof.
  assert (X : forall ws, words_of t ws -> tokenize_words t = Some ws) by (intros ws' W; exact (words_loop_is t ws' W _ (Nat.le_refl _))).
  split; [|apply X]. intros E. destruct (words_exist _ t (Nat.le_refl _)) as (ws' & W). rewrite (X ws' W) in E. injection E as <-. exact W.
Qed.
Lemma words_of_words t ws : words_of t ws -> Forall word_like ws. Proof. induction 1; constructor; assumption. Qed.
Lemma words_unique t ws ws' : words_of t ws -> words_of t ws' -> ws = ws'.
Proof. intros A B. apply tokenize_words_iff in A, B. congruence. Qed.

(** *** Fields *)
Lemma layout_exists fields tokens : exists lead secs, laid_out fields tokens lead secs.
Proof.
  induction tokens as [|t tokens (lead & secs & [T L S])]; [exists [], []; constructor; auto|].
  destruct (member t fields) eqn:M.
  - apply member_iff in M. exists [], ((t, lead) :: secs). constructor; [cbn; congruence|constructor|]. constructor; [cbn; auto|exact S].
  - apply member_false in M. exists (t :: lead), secs. constructor; [cbn; congruence|constructor; assumption|exact S].
Qed.
Lemma has_lookup k (m : list (text * text)) : existsb (fun e => text_eqb k (fst e)) m = match lookup k m with Some _ => true | None => false end.
Proof. induction m as [|(k', v) m IH]; [reflexivity|]. cbn [existsb lookup fst]. destruct (text_eqb k k'); [reflexivity|exact IH]. Qed.
Definition grown (v : text) (ws : list text) : text := fold_left append ws v.
Lemma grown_spaced v ws : v <> [] -> grown v ws = v ++ flat_map (fun w => space :: w) ws.
Proof.
  revert v. induction ws as [|w ws IH]; intros v N; [symmetry; apply app_nil_r|]. cbn [grown fold_left flat_map]. unfold grown in IH. rewrite IH.
  - destruct v as [|c v]; [contradiction N; reflexivity|]. unfold append. rewrite <- !app_assoc. reflexivity.
  - destruct v; [contradiction N; reflexivity|]. discriminate.
Qed.
Lemma joined_flat w ws : joined_by [space] (w :: ws) = w ++ flat_map (fun w => space :: w) ws.
Proof.
  revert w. induction ws as [|w' ws IH]; intros w; [symmetry; apply app_nil_r|].
  change (joined_by [space] (w :: w' :: ws)) with (w ++ [space] ++ joined_by [space] (w' :: ws)). rewrite IH. reflexivity.
Qed.
Lemma grown_all ws : Forall word_like ws -> grown [] ws = spaced ws.
Proof.
  intros W. destruct ws as [|w ws]; [reflexivity|]. inversion W as [|? ? (N & _) _]; subst. unfold spaced. rewrite joined_flat. cbn [grown fold_left append].
  exact (grown_spaced w ws N).
Qed.
Lemma loop_values fields k : forall vals ts m v, Forall (fun t => ~ In t fields) vals -> lookup k m = Some v ->
  exists m', fields_loop fields (vals ++ ts) m (Some k) = fields_loop fields ts m' (Some k) /\ forall k', lookup k' m' = if text_eqb k' k then Some (grown v vals) else lookup k' m.
Proof.
  induction vals as [|t vals IH]; intros ts m v F L.
  - exists m. split; [reflexivity|]. intros k'. destruct (text_eqb k' k) eqn:E; [|reflexivity]. apply eqb_eq in E. subst. exact L.
  - inversion F as [|? ? N F']; subst. cbn [app fields_loop]. apply member_false in N. rewrite N, L. cbn [obind].
    destruct (IH ts (map_set k (append v t) m) (append v t) F') as (m' & E & K); [rewrite lookup_set; replace (text_eqb k k) with true by (symmetry; apply eqb_eq; reflexivity); reflexivity|].
    exists m'. split; [exact E|]. intros k'. rewrite K. destruct (text_eqb k' k) eqn:Q; [reflexivity|]. rewrite lookup_set, Q. reflexivity.
Qed.
Definition stored (secs : list (text * list text)) (k : text) : option text :=
  match List.find (fun s => text_eqb k (fst s)) secs with Some s => Some (spaced (snd s)) | None => None end.
Lemma loop_sections fields : forall secs m curr, Forall (fun s => In (fst s) fields /\ Forall (fun t => ~ In t fields) (snd s)) secs -> Forall (fun s => Forall word_like (snd s)) secs ->
  (NoDup (map fst secs) -> (forall k, In k (map fst secs) -> lookup k m = None) ->
     exists m', fields_loop fields (flat_map (fun s => fst s :: snd s) secs) m curr = Some m' /\ forall k, lookup k m' = match stored secs k with Some v => Some v | None => lookup k m end) /\
  (~ (NoDup (map fst secs) /\ forall k, In k (map fst secs) -> lookup k m = None) -> fields_loop fields (flat_map (fun s => fst s :: snd s) secs) m curr = None).
Proof.
  induction secs as [|(f, vals) secs IH]; intros m curr S W.
  - split; [intros _ _; exists m; split; reflexivity|]. intros H. exfalso. apply H. split; [constructor|intros k []].
  - inversion S as [|? ? (I & N) S']; subst. inversion W as [|? ? W1 W']; subst. cbn [fst snd] in *. cbn [flat_map fst snd app fields_loop].
    pose proof I as I'. apply member_iff in I'. rewrite I', has_lookup. destruct (lookup f m) as [u|] eqn:L.
    + split; [intros _ H; specialize (H f (or_introl eq_refl)); congruence|reflexivity].
    + destruct (loop_values fields f vals (flat_map (fun s => fst s :: snd s) secs) (map_set f [] m) [] N) as (m' & E & K).
      { rewrite lookup_set. replace (text_eqb f f) with true by (symmetry; apply eqb_eq; reflexivity). reflexivity. }
      rewrite E. destruct (IH m' (Some f) S' W') as (A & B).
      assert (Fresh : NoDup (f :: map fst secs) -> (forall k, In k (f :: map fst secs) -> lookup k m = None) -> forall k, In k (map fst secs) -> lookup k m' = None).
      { intros D H k Ik. rewrite K. destruct (text_eqb k f) eqn:Q; [apply eqb_eq in Q; subst; inversion D; contradiction|]. rewrite lookup_set, Q. apply H. right. exact Ik. }
      split.
      * intros D H. destruct A as (m'' & E'' & K''); [inversion D; assumption|exact (Fresh D H)|]. exists m''. split; [exact E''|]. intros k. rewrite K''. unfold stored. cbn [List.find fst].
        destruct (text_eqb k f) eqn:Q.
        -- apply eqb_eq in Q. subst k. destruct (List.find (fun s => text_eqb f (fst s)) secs) as [s|] eqn:Fd.
           ++ exfalso. apply find_some in Fd. destruct Fd as (Is & Es). apply eqb_eq in Es. apply NoDup_cons_iff in D. destruct D as (Nf & _). apply Nf. rewrite Es. exact (in_map fst _ _ Is).
           ++ rewrite K. replace (text_eqb f f) with true by (symmetry; apply eqb_eq; reflexivity). rewrite (grown_all vals W1). reflexivity.
        -- destruct (List.find (fun s => text_eqb k (fst s)) secs); [reflexivity|]. rewrite K, Q, lookup_set, Q. reflexivity.
      * intros H. apply B. intros (D & X). apply H. cbn [map fst]. assert (Nf : ~ In f (map fst secs)).
        { intros If. specialize (X f If). rewrite K in X. replace (text_eqb f f) with true in X by (symmetry; apply eqb_eq; reflexivity). discriminate X. }
        split; [constructor; assumption|]. intros k [<-|Ik]; [exact L|]. specialize (X k Ik). rewrite K in X. destruct (text_eqb k f) eqn:Q; [discriminate X|]. rewrite lookup_set, Q in X. exact X.
Qed.
Lemma stored_in secs k v : NoDup (map fst secs) -> stored secs k = Some v <-> In (k, v) (map (fun s => (fst s, spaced (snd s))) secs).
Proof.
  intros D. unfold stored. destruct (List.find (fun s => text_eqb k (fst s)) secs) as [s|] eqn:F.
  - pose proof (find_some _ _ F) as (I & E). apply eqb_eq in E. subst k. split.
    + intros X. injection X as <-. exact (in_map (fun s => (fst s, spaced (snd s))) _ _ I).
    + intros J. apply in_map_iff in J. destruct J as (s' & E & I'). injection E as E1 E2.
      assert (s' = s) as ->; [|congruence]. clear F E2. induction secs as [|a secs IH]; [destruct I|]. inversion D as [|? ? Na D']; subst.
      destruct I as [->|I], I' as [->|I']; [reflexivity| | |exact (IH D' I I')]; exfalso; apply Na; [rewrite <- E1|rewrite E1]; apply in_map; assumption.
  - split; [discriminate|]. intros J. apply in_map_iff in J. destruct J as (s & E & I). injection E as E1 E2. subst. pose proof (find_none _ _ F s I) as X. cbn in X. rewrite (proj2 (eqb_eq _ _) eq_refl) in X. discriminate X.
Qed.
Lemma fields_spec fields tokens lead secs : Forall word_like tokens -> laid_out fields tokens lead secs ->
  (allowed fields lead secs -> exists m, parseFields fields tokens = Some m /\ forall k v, lookup k m = Some v <-> In (k, v) (contents lead secs)) /\
  (~ allowed fields lead secs -> parseFields fields tokens = None).
Proof.
  intros W [T L S]. subst tokens. apply Forall_app in W. destruct W as (Wl & Ws).
  assert (Ws' : Forall (fun s : text * list text => Forall word_like (snd s)) secs /\ Forall (fun s : text * list text => fst s <> []) secs).
  { clear -Ws. induction secs as [|s secs IH]; [split; constructor|]. cbn [flat_map] in Ws. inversion Ws as [|? ? (N & _) R]; subst. apply Forall_app in R. destruct R as (R1 & R2). destruct (IH R2). split; constructor; assumption. }
  destruct Ws' as (Ws' & Ne). unfold parseFields. destruct lead as [|t lead].
  - cbn [app contents]. destruct (loop_sections fields secs [] None S Ws') as (A & B). split.
    + intros (D & _). destruct A as (m & E & K); [exact D|reflexivity|]. exists m. split; [exact E|]. intros k v. rewrite K, <- (stored_in secs k v D). cbn [lookup]. destruct (stored secs k); reflexivity.
    + intros N. apply B. intros (D & _). apply N. split; [exact D|]. intros X. contradiction X. reflexivity.
  - inversion L as [|? ? Nt L']; subst. inversion Wl as [|? ? Wt Wl']; subst. cbn [app fields_loop]. apply member_false in Nt. rewrite Nt.
    destruct (member [] fields) eqn:M0.
    + apply member_iff in M0. destruct (loop_values fields [] lead (flat_map (fun s => fst s :: snd s) secs) (map_set [] (append [] t) []) t L' eq_refl) as (m' & E & K). rewrite E.
      destruct (loop_sections fields secs m' (Some []) S Ws') as (A & B).
      assert (Z0 : forall k, In k (map fst secs) -> lookup k m' = None).
      { intros k I. apply in_map_iff in I. destruct I as (s & <- & Is). rewrite K. rewrite Forall_forall in Ne. specialize (Ne s Is). destruct (fst s); [contradiction Ne; reflexivity|reflexivity]. }
      split.
      * intros (D & _). destruct A as (m & E' & K'); [exact D|exact Z0|]. exists m. split; [exact E'|]. intros k v. rewrite K'. unfold contents. cbn [app In]. rewrite <- (stored_in secs k v D).
        destruct (stored secs k) as [u|] eqn:Q.
        -- split; [right; exact H|]. intros [H|H]; [|exact H]. injection H as <- <-. exfalso. apply (stored_in secs [] u D) in Q. apply in_map_iff in Q. destruct Q as (s & Es & Is). injection Es as Es _.
           rewrite Forall_forall in Ne. exact (Ne s Is Es).
        -- rewrite K. assert (G : grown t lead = spaced (t :: lead)) by (exact (grown_all (t :: lead) Wl)). destruct k as [|c k]; cbn [text_eqb].
           ++ rewrite G. split; [intros X; injection X as <-; left; reflexivity|]. intros [X|X]; [injection X as <-; reflexivity|discriminate X].
           ++ cbn [map_set lookup text_eqb]. split; [discriminate|]. intros [X|X]; discriminate X.
      * intros N. apply B. intros (D & _). apply N. split; [exact D|]. intros _. exact M0.
    + apply member_false in M0. split; [intros (_ & H); exfalso; apply M0, H; discriminate|reflexivity].
Qed.
