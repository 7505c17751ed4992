From Coq Require Import ZArith List Bool Lia.
From Verif Require Import OptModel TextModel TextProofs LinesSpec LinesProofs StringsModel StringsSpec.
Import ListNotations.
Open Scope Z_scope.

(** Trimming. *)
Lemma skip_spaces w s : spaces w -> skip_ws (w ++ s) = skip_ws s.
Proof. induction 1 as [|c w H _ IH]; [reflexivity|]. cbn [app skip_ws]. rewrite H. exact IH. Qed.
Lemma skip_ws_split s : exists w, spaces w /\ s = w ++ skip_ws s /\ (forall c r, skip_ws s = c :: r -> is_space c = false).
Proof.
  induction s as [|c s (w & W & E & H)]; [exists []; repeat split; [constructor|intros c r Z; discriminate]|]. cbn [skip_ws]. destruct (is_space c) eqn:Ec.
  - exists (c :: w). split; [constructor; auto|]. split; [cbn [app]; rewrite <- E; reflexivity|exact H].
  - exists []. split; [constructor|]. split; [reflexivity|]. intros d r Z. injection Z as <- _. exact Ec.
Qed.
Lemma spaces_rev w : spaces w -> spaces (rev w).
Proof. intros H. apply Forall_forall. intros c Hc. apply in_rev in Hc. unfold spaces in H. rewrite Forall_forall in H. auto. Qed.
Lemma rtrim_split s : exists w, spaces w /\ s = rtrim s ++ w /\ (forall c r, rtrim s = r ++ [c] -> is_space c = false).
Proof.
  destruct (skip_ws_split (rev s)) as (w & W & E & H). exists (rev w). split; [apply spaces_rev; exact W|]. unfold rtrim. split.
  - rewrite <- rev_app_distr, <- E, rev_involutive. reflexivity.
  - intros c r Z. apply (f_equal (@rev _)) in Z. rewrite rev_involutive, rev_app_distr in Z. cbn [rev app] in Z. eapply H; eauto.
Qed.
Lemma rtrim_spaces s w : spaces w -> rtrim (s ++ w) = rtrim s.
Proof. intros H. unfold rtrim. rewrite rev_app_distr, skip_spaces by (apply spaces_rev; exact H). reflexivity. Qed.
Lemma rtrim_none s : (forall c r, s = r ++ [c] -> is_space c = false) -> rtrim s = s.
Proof.
  intros H. unfold rtrim. rewrite skip_ws_none; [apply rev_involutive|]. destruct (rev s) as [|c r] eqn:E; [exact I|]. apply (f_equal (@rev _)) in E. rewrite rev_involutive in E. cbn [rev] in E. eapply H; eauto.
Qed.
Lemma skip_none s : (forall c r, s = c :: r -> is_space c = false) -> skip_ws s = s.
Proof. intros H. apply skip_ws_none. destruct s as [|c r]; [exact I|]. eapply H; eauto. Qed.
Lemma trim_around w s w' : spaces w -> trimmed s -> spaces w' -> trim (w ++ s ++ w') = s.
Proof.
  intros W [H1 H2] W'. unfold trim, ltrim. rewrite app_assoc, rtrim_spaces by exact W'. destruct s as [|c s].
  - rewrite app_nil_r. rewrite <- (app_nil_l w), rtrim_spaces by exact W. reflexivity.
  - rewrite rtrim_none; [rewrite skip_spaces by exact W; apply skip_none; exact H1|]. intros d r E.
    destruct (exists_last (l := c :: s)) as (r' & d' & E'); [discriminate|]. rewrite E' in E. rewrite app_assoc in E. apply app_inj_tail in E. destruct E as [_ <-]. eapply H2; eauto.
Qed.
Lemma trimmed_skip s : (forall c r, s = r ++ [c] -> is_space c = false) -> trimmed (skip_ws s).
Proof.
  intros H. destruct (skip_ws_split s) as (w & W & E & H1). split; [exact H1|]. intros c r Z. eapply (H c (w ++ r)). rewrite E, Z at 1. apply app_assoc.
Qed.
Lemma trim_split s : exists w w', spaces w /\ spaces w' /\ s = w ++ trim s ++ w' /\ trimmed (trim s).
Proof.
  destruct (rtrim_split s) as (w' & W' & E & H). destruct (skip_ws_split (rtrim s)) as (w & W & E2 & H1). exists w, w'. split; [exact W|]. split; [exact W'|]. unfold trim, ltrim. split.
  - rewrite E at 1. rewrite E2 at 1. rewrite <- app_assoc. reflexivity.
  - apply trimmed_skip. exact H.
Qed.
Lemma trim_nil : trim [] = []. Proof. reflexivity. Qed.

(** Prefixes and occurrences. *)
Lemma startsWith_iff s p : startsWith s p = true <-> exists b, s = p ++ b.
Proof.
  unfold startsWith. split.
  - intros H. apply andb_true_iff in H. destruct H as [H _]. apply text_eqb_eq in H. exists (skipn (length p) s). rewrite <- H at 1. symmetry. apply firstn_skipn.
  - intros (b & ->). rewrite firstn_app, firstn_all, Nat.sub_diag. cbn [firstn]. rewrite app_nil_r, text_eqb_refl. cbn [andb]. apply Nat.leb_le. rewrite app_length. lia.
Qed.
Lemma endsWith_iff s p : endsWith s p = true <-> exists a, s = a ++ p.
Proof.
  unfold endsWith. split.
  - intros H. apply andb_true_iff in H. destruct H as [H _]. apply text_eqb_eq in H. exists (firstn (length s - length p) s). rewrite <- H at 2. symmetry. apply firstn_skipn.
  - intros (a & ->). rewrite app_length. replace (length a + length p - length p)%nat with (length a) by lia. rewrite skipn_app, skipn_all, Nat.sub_diag. cbn [skipn app]. rewrite text_eqb_refl. cbn [andb]. apply Nat.leb_le. lia.
Qed.
Lemma find_from_some search : forall s pos p, find_from search s pos = Some p -> exists a b, s = a ++ search ++ b /\ p = (pos + length a)%nat /\ forall a' b', s = a' ++ search ++ b' -> (length a <= length a')%nat.
Proof.
  induction s as [|c s IH]; intros pos p H; cbn [find_from] in H; destruct (startsWith _ search) eqn:E.
  - injection H as <-. apply startsWith_iff in E. destruct E as (b & E). exists [], b. split; [exact E|]. split; [cbn; lia|]. intros. cbn. lia.
  - discriminate.
  - injection H as <-. apply startsWith_iff in E. destruct E as (b & E). exists [], b. split; [exact E|]. split; [cbn; lia|]. intros. cbn. lia.
  - destruct (IH _ _ H) as (a & b & -> & -> & L). exists (c :: a), b. split; [reflexivity|]. split; [cbn; lia|]. intros [|x a'] b' Z.
    + exfalso. assert (T : startsWith (c :: a ++ search ++ b) search = true) by (apply startsWith_iff; eauto). congruence.
    + cbn [app] in Z. injection Z as _ Z. specialize (L a' b' Z). cbn. lia.
Qed.
Lemma find_from_none search : forall s pos, find_from search s pos = None -> ~ occurs search s.
Proof.
  induction s as [|c s IH]; intros pos H; cbn [find_from] in H; destruct (startsWith _ search) eqn:E; try discriminate; intros (a & b & Z).
  - apply not_true_iff_false in E. apply E. apply startsWith_iff. symmetry in Z. apply app_eq_nil in Z. destruct Z as [-> Z]. exists b. symmetry. exact Z.
  - destruct a as [|x a]; [apply not_true_iff_false in E; apply E; apply startsWith_iff; eauto|]. cbn [app] in Z. injection Z as _ Z. eapply IH; eauto. exists a, b. exact Z.
Qed.
Lemma replace_spec search replace : search <> [] -> forall fuel done s, (length s < fuel)%nat ->
  exists t, replace_loop fuel search replace (done ++ s) (length done) = Some (done ++ t) /\ replaced search replace s t.
Proof.
  intros N. induction fuel as [|fuel IH]; intros dn s L; [lia|]. cbn [replace_loop]. unfold find. destruct (Nat.leb_spec (length dn) (length (dn ++ s))) as [_|Z]; [|rewrite app_length in Z; lia].
  rewrite skipn_app, skipn_all, Nat.sub_diag. cbn [skipn app]. destruct (find_from search s (length dn)) as [p|] eqn:E.
  - destruct (find_from_some _ _ _ _ E) as (a & b & -> & -> & M).
    assert (F : firstn (length dn + length a) (dn ++ a ++ search ++ b) = dn ++ a) by (rewrite app_assoc, <- app_length, firstn_app, firstn_all, Nat.sub_diag; cbn [firstn]; apply app_nil_r). rewrite F.
    assert (K : skipn (length dn + length a + length search) (dn ++ a ++ search ++ b) = b).
    { rewrite !app_assoc, <- !app_length. rewrite skipn_app, skipn_all, Nat.sub_diag. reflexivity. }
    rewrite K. destruct (IH (dn ++ a ++ replace) b) as (t & Et & R).
    { rewrite !app_length in L. destruct search; [contradiction N; reflexivity|]. cbn [length] in L. lia. }
    rewrite !app_length in Et. rewrite Nat.add_assoc in Et. rewrite <- !app_assoc in *. exists (a ++ replace ++ t). split; [exact Et|]. constructor; auto.
  - exists s. split; [reflexivity|]. constructor. eapply find_from_none; eauto.
Qed.
Lemma replaceAll_spec source search replace fuel : search <> [] -> (length source < fuel)%nat -> exists t, replaceAll fuel source search replace = Some t /\ replaced search replace source t.
Proof. intros N L. exact (replace_spec search replace N fuel [] source L). Qed.
Lemma replaced_unique search replace : search <> [] -> forall s t, replaced search replace s t -> forall u, replaced search replace s u -> t = u.
Proof.
  intros N s t H. induction H as [s No|a b t M R IH]; intros u U.
  - inversion U as [s' No'|a b v M R]; subst; [reflexivity|]. exfalso. apply No. exists a, b. reflexivity.
  - inversion U as [s' No'|a' b' v M' R' E]; subst; [exfalso; apply No'; exists a, b; reflexivity|].
    assert (L : length a = length a') by (pose proof (M a' b' (eq_sym E)); pose proof (M' a b E); lia).
    assert (G : forall (a a' x y : list Z), a ++ x = a' ++ y -> length a = length a' -> a = a') by (clear; induction a as [|c a IH]; intros [|c' a'] x y E L; try discriminate L; [reflexivity|]; cbn [app length] in *; injection E as -> E; injection L as L; f_equal; eapply IH; eauto).
    assert (Ea : a = a') by (eapply G; [symmetry; exact E|exact L]).
    subst a'. apply app_inv_head in E. apply app_inv_head in E. subst b'. rewrite (IH _ R'). reflexivity.
Qed.
Lemma empty_search_loops source replace fuel : replaceAll fuel source [] replace = None.
Proof.
  unfold replaceAll. assert (G : forall fuel source pos, (pos <= length source)%nat -> replace_loop fuel [] replace source pos = None).
  { clear. induction fuel as [|fuel IH]; intros source pos L; [reflexivity|]. cbn [replace_loop]. unfold find. apply Nat.leb_le in L as L'. rewrite L'.
    assert (F : find_from [] (skipn pos source) pos = Some pos) by (destruct (skipn pos source); reflexivity). rewrite F. apply IH. rewrite !app_length, firstn_length, skipn_length. cbn [length]. lia. }
  apply G. lia.
Qed.

(** Pieces of a text. *)
Lemma getlines_piece d p s : Forall (fun c => c <> d) p -> getlines d (p ++ d :: s) = p :: getlines d s.
Proof.
  induction 1 as [|c p H _ IH]; cbn [app getlines]; [rewrite Z.eqb_refl; reflexivity|]. destruct (Z.eqb_spec c d); [contradiction|]. rewrite IH. reflexivity.
Qed.
Lemma getlines_last d p : Forall (fun c => c <> d) p -> getlines d p = match p with [] => [] | _ => [p] end.
Proof.
  induction 1 as [|c p H _ IH]; [reflexivity|]. cbn [getlines]. destruct (Z.eqb_spec c d); [contradiction|]. rewrite IH. destruct p; reflexivity.
Qed.
Lemma getlines_pieces d : forall ps, Forall (Forall (fun c => c <> d)) ps -> ps <> [] ->
  getlines d (joined d ps) = if (match last ps [] with [] => true | _ => false end) then removelast ps else ps.
Proof.
  induction ps as [|p ps IH]; intros F N; [contradiction N; reflexivity|]. inversion F; subst. destruct ps as [|q ps].
  - cbn [joined last removelast]. rewrite getlines_last by auto. destruct p; reflexivity.
  - change (joined d (p :: q :: ps)) with (p ++ d :: joined d (q :: ps)). rewrite getlines_piece by auto. rewrite IH by (auto; discriminate).
    change (last (p :: q :: ps) []) with (last (q :: ps) []). change (removelast (p :: q :: ps)) with (p :: removelast (q :: ps)). destruct (last (q :: ps) []); reflexivity.
Qed.
Lemma last_app {A} (l : list A) x d : last (l ++ [x]) d = x.
Proof. induction l as [|y l IH]; [reflexivity|]. cbn [app last]. destruct (l ++ [x]) eqn:E; [destruct l; discriminate|exact IH]. Qed.
Lemma explode_pieces d s ps : s <> [] -> pieces_of d s ps -> explode s d = ps.
Proof.
  intros N (Np & F & E). assert (X : explode s d = getlines d s ++ (if Z.eqb (last s 0) d then [[]] else [])) by (destruct s; [contradiction N; reflexivity|reflexivity]). rewrite X. clear X. subst s. rewrite getlines_pieces by auto.
  destruct (exists_last Np) as (ps' & q & ->). rewrite last_app, removelast_last. apply Forall_app in F. destruct F as [F Fq]. apply Forall_inv in Fq. destruct ps' as [|p ps'].
  - cbn [app joined] in *. destruct q as [|c q]; [contradiction N; reflexivity|]. destruct (exists_last (l := c :: q)) as (q' & x & Eq); [discriminate|]. rewrite Eq in *. rewrite last_app. apply Forall_app in Fq. destruct Fq as [_ Fx]. apply Forall_inv in Fx.
    destruct (Z.eqb_spec x d); [contradiction|]. apply app_nil_r.
  - rewrite joined_snoc by discriminate. destruct q as [|c q].
    + rewrite last_app, Z.eqb_refl. reflexivity.
    + destruct (exists_last (l := c :: q)) as (q' & x & Eq); [discriminate|]. rewrite Eq in *. change (d :: q' ++ [x]) with ((d :: q') ++ [x]). rewrite app_assoc, last_app. apply Forall_app in Fq. destruct Fq as [_ Fx]. apply Forall_inv in Fx.
      destruct (Z.eqb_spec x d); [contradiction|]. apply app_nil_r.
Qed.
Lemma implode_joined ps d : implode ps [d] = joined d ps.
Proof.
  destruct ps as [|p ps]; [reflexivity|]. unfold implode. assert (E : flat_map (fun q => q ++ [d]) (p :: ps) = joined d (p :: ps) ++ [d]).
  { revert p. induction ps as [|q ps IH]; intros p; [cbn [flat_map joined]; apply app_nil_r|]. cbn [flat_map] in *. change (joined d (p :: q :: ps)) with (p ++ d :: joined d (q :: ps)). rewrite IH, <- !app_assoc. reflexivity. }
  rewrite E, app_length. cbn [length]. replace (length (joined d (p :: ps)) + 1 - 1)%nat with (length (joined d (p :: ps))) by lia. rewrite firstn_app, firstn_all, Nat.sub_diag. cbn [firstn]. apply app_nil_r.
Qed.
Lemma implode_by ps delim : implode ps delim = joined_by delim ps.
Proof.
  destruct ps as [|p ps]; [reflexivity|]. unfold implode. assert (E : flat_map (fun q => q ++ delim) (p :: ps) = joined_by delim (p :: ps) ++ delim).
  { revert p. induction ps as [|q ps IH]; intros p; [cbn [flat_map joined_by]; apply app_nil_r|]. cbn [flat_map] in *. change (joined_by delim (p :: q :: ps)) with (p ++ delim ++ joined_by delim (q :: ps)). rewrite IH, <- !app_assoc. reflexivity. }
  rewrite E, app_length. replace (length (joined_by delim (p :: ps)) + length delim - length delim)%nat with (length (joined_by delim (p :: ps))) by lia. rewrite firstn_app, firstn_all, Nat.sub_diag. cbn [firstn]. apply app_nil_r.
Qed.
Lemma explode_implode ps d : ps <> [[]] -> Forall (Forall (fun c => c <> d)) ps -> explode (implode ps [d]) d = ps.
Proof.
  intros N F. rewrite implode_joined. destruct ps as [|p ps]; [reflexivity|]. apply explode_pieces; [|split; [discriminate|split; [exact F|reflexivity]]]. destruct ps as [|q ps]; [cbn [joined]; intros ->; apply N; reflexivity|]. cbn [joined]. intros E. apply app_eq_nil in E. destruct E as [_ E]. discriminate.
Qed.
Lemma implode_explode s d : implode (explode s d) [d] = s.
Proof.
  rewrite implode_joined. destruct s as [|c s]; [reflexivity|]. destruct (pieces_exist d (c :: s)) as (ps & Hp). rewrite (explode_pieces d (c :: s) ps) by (auto; discriminate). destruct Hp as (_ & _ & E). symmetry. exact E.
Qed.

(** Versions. *)
Lemma decimal_trimmed z : trimmed (decimal z).
Proof.
  assert (H : Forall (fun c => is_space c = false) (decimal z)) by apply decimal_no_space. split.
  - intros c r E. rewrite E in H. exact (Forall_inv H).
  - intros c r E. rewrite E in H. apply Forall_app in H. exact (Forall_inv (proj2 H)).
Qed.
Lemma token_back w z w' : spaces w -> spaces w' -> 0 <= z < 2 ^ 64 -> parseToken (w ++ decimal z ++ w') = Some z.
Proof.
  intros W W' B. unfold parseToken. rewrite trim_around by (auto; apply decimal_trimmed). destruct (decimal z) as [|c r] eqn:E; [exfalso; exact (decimal_nonempty z E)|]. rewrite <- E.
  pose proof (extract_decimal z [] B I) as X. rewrite app_nil_r in X. rewrite X. reflexivity.
Qed.
Lemma token_plain z : 0 <= z < 2 ^ 64 -> parseToken (decimal z) = Some z.
Proof. intros B. pose proof (token_back [] z [] (Forall_nil _) (Forall_nil _) B) as T. cbn [app] in T. rewrite app_nil_r in T. exact T. Qed.
Lemma decimal_no_dot z : Forall (fun c => c <> 46) (decimal z).
Proof. eapply Forall_impl; [|apply decimal_digits]. intros c H ->. discriminate H. Qed.
Lemma version_back v : version_ok v -> parse_version (version_str v) = Some v.
Proof.
  intros (B1 & B2 & B3). unfold parse_version. assert (E : explode (version_str v) 46 = [decimal (v_major v); decimal (v_minor v); decimal (v_patch v)]).
  { apply explode_pieces; [unfold version_str; intros Z; apply app_eq_nil in Z; destruct Z; discriminate|]. split; [discriminate|]. split; [repeat (constructor; [apply decimal_no_dot|]); constructor|reflexivity]. }
  rewrite E, !token_plain by auto. destruct v; reflexivity.
Qed.
Lemma spaces_no_dot w : spaces w -> Forall (fun c => c <> 46) w.
Proof. intros H. eapply Forall_impl; [|exact H]. intros c Hc ->. discriminate Hc. Qed.
Lemma version_short w1 w2 w3 w4 a b : spaces w1 -> spaces w2 -> spaces w3 -> spaces w4 -> 0 <= a < 2 ^ 64 -> 0 <= b < 2 ^ 64 ->
  parse_version (w1 ++ decimal a ++ w2) = Some (Version a 0 0) /\ parse_version ((w1 ++ decimal a ++ w2) ++ 46 :: w3 ++ decimal b ++ w4) = Some (Version a b 0).
Proof.
  intros W1 W2 W3 W4 Ba Bb. assert (P : forall w z w', spaces w -> spaces w' -> Forall (fun c => c <> 46) (w ++ decimal z ++ w')).
  { intros w z w' H H'. apply Forall_app. split; [apply spaces_no_dot; exact H|]. apply Forall_app. split; [apply decimal_no_dot|apply spaces_no_dot; exact H']. }
  assert (Ne : forall w z w', w ++ decimal z ++ w' <> []) by (intros w z w' Z; apply app_eq_nil in Z; destruct Z as [_ Z]; apply app_eq_nil in Z; destruct Z as [Z _]; exact (decimal_nonempty z Z)). unfold parse_version. split.
  - assert (E : explode (w1 ++ decimal a ++ w2) 46 = [w1 ++ decimal a ++ w2]) by (apply explode_pieces; [apply Ne|split; [discriminate|split; [constructor; [apply P; auto|constructor]|reflexivity]]]). rewrite E, token_back by auto. reflexivity.
  - assert (E : explode ((w1 ++ decimal a ++ w2) ++ 46 :: w3 ++ decimal b ++ w4) 46 = [w1 ++ decimal a ++ w2; w3 ++ decimal b ++ w4]).
    { apply explode_pieces; [intros Z; apply app_eq_nil in Z; destruct Z; discriminate|]. split; [discriminate|]. split; [|reflexivity]. constructor; [apply P; auto|]. constructor; [apply P; auto|constructor]. }
    rewrite E, !token_back by auto. reflexivity.
Qed.
Lemma version_eqb_iff a b : version_eqb a b = true <-> a = b.
Proof.
  unfold version_eqb. rewrite !andb_true_iff, !Z.eqb_eq. destruct a as [x y z], b as [x' y' z']; cbn [v_major v_minor v_patch]. split; [intros [[-> ->] ->]; reflexivity|intros E; injection E; auto].
Qed.
Lemma version_ltb_iff a b : version_ltb a b = true <-> older a b.
Proof. unfold version_ltb, older. rewrite !orb_true_iff, !andb_true_iff, !orb_true_iff, !andb_true_iff, !negb_true_iff, !Z.ltb_lt, !Z.ltb_ge. lia. Qed.
Lemma older_irrefl a : ~ older a a. Proof. unfold older. lia. Qed.
Lemma older_trans a b c : older a b -> older b c -> older a c. Proof. unfold older. lia. Qed.
Lemma older_total a b : older a b \/ a = b \/ older b a.
Proof.
  unfold older. destruct (Z.lt_trichotomy (v_major a) (v_major b)) as [?|[Ea|?]]; [tauto| |tauto]. destruct (Z.lt_trichotomy (v_minor a) (v_minor b)) as [?|[Eb|?]]; [tauto| |right; right; right; split; [auto|left; auto]].
  destruct (Z.lt_trichotomy (v_patch a) (v_patch b)) as [?|[Ec|?]]; [tauto| |right; right; right; split; [auto|right; auto]]. right. left. destruct a, b; cbn in *; congruence.
Qed.
Lemma version_refused s ps : pieces_of 46 s ps -> (3 < length ps)%nat \/ (exists p, In p ps /\ spaces p) -> parse_version s = None.
Proof.
  intros Hp H. unfold parse_version. destruct s as [|c s]; [reflexivity|]. rewrite (explode_pieces 46 (c :: s) ps) by (auto; discriminate).
  assert (T : forall p, spaces p -> parseToken p = None).
  { intros p S. unfold parseToken. pose proof (trim_around [] [] p (Forall_nil _)) as T. cbn [app] in T. rewrite T; [reflexivity| |exact S]. split; [intros x r E; discriminate|intros x r E; destruct r; discriminate]. }
  destruct H as [L|(p & I & S)].
  - destruct ps as [|a [|b [|d [|e ps]]]]; cbn [length] in L; try lia. reflexivity.
  - apply T in S. destruct ps as [|a [|b [|d [|e ps]]]]; cbn [In] in I; try reflexivity; intuition subst; rewrite ?S; cbn [obind]; try reflexivity.
    + destruct (parseToken b); reflexivity.
    + destruct (parseToken d); cbn [obind]; [destruct (parseToken b); reflexivity|reflexivity].
    + destruct (parseToken d); reflexivity.
Qed.
