(** Convex bodies, polyspheres and polyspherocylinders in old input files. *)
From Coq Require Import Reals ZArith List Bool String Lia Lra.
From Verif Require Import TextModel TextProofs StringsModel StringsSpec StringsProofs LinesSpec LinesProofs ConfigModel ConfigProofs RamsnapSpec GeomModel GeomProofs GeoModel XcModel LegacyModel LegacySpec LegacyProofs LegacyCommandProofs LegacyShapeProofs OptModel.
Import ListNotations.
Open Scope Z_scope.

Section Final.
Variables (scan : text -> option (R * text)) (failed : text -> R) (stod : text -> option R).
Hypothesis sc : scanner scan.

Lemma process_iff : forall parts s s', process scan parts s = Some s' <-> exists cs, Forall2 (command_text scan) parts cs /\ run_script cs s = Some s'.
Proof.
  induction parts as [|t parts IH]; intros s s'.
  - split; [intros E; exists []; split; [constructor|exact E]|]. intros (cs & F & E). inversion F; subst. exact E.
  - cbn [process]. unfold processCommand. split.
    + destruct (read_command scan t) as [c|] eqn:C; [|discriminate]. cbn [obind]. destruct (run_command c s) as [s1|] eqn:Q; [|discriminate]. cbn [obind]. intros E. apply IH in E. destruct E as (cs & F & E).
      exists (c :: cs). split; [constructor; [apply command_iff; exact C|exact F]|]. cbn [run_script]. rewrite Q. exact E.
    + intros (cs & F & E). inversion F as [|? c ? cs' C F']; subst. apply command_iff in C. rewrite C. cbn [obind]. cbn [run_script] in E. destruct (run_command c s) as [s1|]; [|discriminate E]. cbn [obind] in E |- *. apply IH. exists cs'. auto.
Qed.
Lemma processed t c s : command_text scan t c -> processCommand scan t s = run_command c s.
Proof. intros C. apply command_iff in C. unfold processCommand. rewrite C. reflexivity. Qed.
Lemma unprocessed t s : (forall c, ~ command_text scan t c) -> processCommand scan t s = None.
Proof. intros N. unfold processCommand. destruct (read_command scan t) as [c|] eqn:E; [|reflexivity]. apply command_iff in E. destruct (N c E). Qed.

Lemma script_named : ~ In [] ([str "script"] ++ []). Proof. intros [I|[]]. discriminate I. Qed.
Lemma spheres_named : ~ In [] ([str "spheres"] ++ []). Proof. intros [I|[]]. discriminate I. Qed.
Lemma cylinders_named : ~ In [] ([] ++ [str "chain"; str "spherocylinders"]). Proof. intros [I|[I|[]]]; discriminate I. Qed.

Lemma convex_is t g pa sa o v ps :
  (exists c, parse_generic_xeno_collide scan stod t = Some (c, g) /\ holds c pa sa o v ps) <->
  exists secs u cs, shape_text scan stod [str "script"] [] t secs pa sa o v ps /\ value secs "script" u /\ script_text scan u cs /\ build cs = Some g.
Proof.
  unfold parse_generic_xeno_collide. split.
  - intros (c & E & (<- & <- & <- & <- & <-)). destruct (parse_generic_shape_traits scan stod t [str "script"] []) as [c'|] eqn:P; [|discriminate E]. cbn [obind] in E.
    destruct (generic_only scan failed stod sc _ _ script_named t c' P) as (secs & Sh & A). destruct (lookup (str "script") (co_fields c')) as [u|] eqn:L; [|discriminate E]. cbn [obind] in E.
    destruct (explode u 38) as [|w parts] eqn:X; [discriminate E|]. destruct (process scan (w :: parts) []) as [st|] eqn:Q; [|discriminate E]. cbn [obind] in E.
    destruct (releaseCollideGeometry st) as [g'|] eqn:G; [|discriminate E]. cbn [obind] in E. injection E as <- <-. apply process_iff in Q. destruct Q as (cs & F & Q).
    exists secs, u, cs. split; [exact Sh|]. split; [apply (agrees_value (co_fields c')); assumption|]. assert (Nu : u <> []) by (intros ->; discriminate X). split.
    + split; [exact Nu|]. exists (w :: parts). split; [|exact F]. destruct (pieces_exist 38 u) as (qs & Hq). rewrite (explode_pieces 38 u qs Nu Hq) in X. subst qs. exact Hq.
    + unfold build. rewrite Q. exact G.
  - intros (secs & u & cs & Sh & V & (Nu & parts & Hp & F) & B). destruct (generic_is scan failed stod sc _ _ t secs pa sa o v ps Sh) as (c & P & H & A). exists c. split; [|exact H].
    rewrite P. cbn [obind]. apply (agrees_value (co_fields c) secs _ _ A) in V. rewrite V. cbn [obind]. rewrite (explode_pieces 38 u parts Nu Hp). destruct parts as [|w parts]; [destruct Hp as (N & _); contradiction N; reflexivity|].
    unfold build in B. destruct (run_script cs []) as [st|] eqn:Q; [|discriminate B]. cbn [obind] in B. replace (process scan (w :: parts) []) with (Some st) by (symmetry; apply process_iff; exists cs; auto). cbn [obind]. rewrite B. reflexivity.
Qed.

(** *** Spheres *)
Lemma positive_true x : Rltb 0 x = true <-> (0 < x)%R. Proof. unfold Rltb. destruct (Rlt_dec 0 x); split; intros; congruence || assumption || contradiction. Qed.
Lemma spheres_loop_iff : forall data xs, spheres_loop xs = Some data <-> xs = flat_map (fun s : vec * R => [snd s; vx (fst s); vy (fst s); vz (fst s)]) data /\ Forall (fun s => (0 < snd s)%R) data.
Proof.
  induction data as [|(p, r) data IH]; intros xs.
  - split; [|intros (-> & _); reflexivity]. destruct xs as [|r [|x [|y [|z xs]]]]; try discriminate; [intros _; split; [reflexivity|constructor]|]. cbn [spheres_loop]. destruct (Rltb 0 r); [|discriminate]. destruct (spheres_loop xs); discriminate.
  - split.
    + destruct xs as [|r' [|x [|y [|z xs]]]]; try discriminate. cbn [spheres_loop]. destruct (Rltb 0 r') eqn:P; [|discriminate]. destruct (spheres_loop xs) as [rest|] eqn:E; [|discriminate]. cbn [obind]. intros X. injection X as <- <- <-.
      apply IH in E. destruct E as (-> & F). apply positive_true in P. split; [reflexivity|constructor; assumption].
    + intros (-> & F). inversion F as [|? ? P F']; subst. cbn [flat_map app fst snd spheres_loop]. apply positive_true in P. cbn in P. rewrite P. rewrite (proj2 (IH _) (conj eq_refl F')). destruct p; reflexivity.
Qed.
Lemma polysphere_is t data pa sa o v ps :
  (exists c, parse_polysphere_geometry scan failed stod t = Some (c, data) /\ holds c pa sa o v ps) <->
  exists secs u xs, shape_text scan stod [str "spheres"] [] t secs pa sa o v ps /\ value secs "spheres" u /\ all_numbers scan failed u xs /\ spheres_of xs data.
Proof.
  unfold parse_polysphere_geometry. split.
  - intros (c & E & (<- & <- & <- & <- & <-)). destruct (parse_generic_shape_traits scan stod t [str "spheres"] []) as [c'|] eqn:P; [|discriminate E]. cbn [obind] in E.
    destruct (generic_only scan failed stod sc _ _ spheres_named t c' P) as (secs & Sh & A). destruct (lookup (str "spheres") (co_fields c')) as [u|] eqn:L; [|discriminate E]. cbn [obind] in E.
    destruct (tokenize R scan failed u) as [xs|] eqn:T; [|discriminate E]. cbn [obind] in E. destruct xs as [|x xs]; [discriminate E|]. destruct (spheres_loop (x :: xs)) as [d|] eqn:S; [|discriminate E]. cbn [obind] in E. injection E as <- <-.
    exists secs, u, (x :: xs). split; [exact Sh|]. split; [apply (agrees_value (co_fields c')); assumption|]. split; [apply (all_numbers_iff scan failed stod sc); exact T|]. apply spheres_loop_iff in S. destruct S as (S1 & S2).
    split; [intros ->; discriminate S1|auto].
  - intros (secs & u & xs & Sh & V & N & (D & Sx & F)). destruct (generic_is scan failed stod sc _ _ t secs pa sa o v ps Sh) as (c & P & H & A). exists c. split; [|exact H].
    rewrite P. cbn [obind]. apply (agrees_value (co_fields c) secs _ _ A) in V. rewrite V. cbn [obind]. apply (all_numbers_iff scan failed stod sc) in N. rewrite N. cbn [obind].
    rewrite (proj2 (spheres_loop_iff data xs) (conj Sx F)). destruct xs; [|reflexivity]. destruct data; [contradiction D; reflexivity|discriminate Sx].
Qed.

(** *** Spherocylinders *)
Lemma between_iff r p q s : between r p q s <-> s = spherocylinder r p q.
Proof.
  unfold between, spherocylinder. destruct s as [[pos half] radius]. split.
  - intros (<- & <- & ->). cbv zeta. assert (E : vscale (/ 2) (vadd (vsub pos half) (vadd pos half)) = pos) by (destruct pos, half; apply vec_ext; cbn; field). rewrite E.
    assert (E2 : vsub (vadd pos half) pos = half) by (destruct pos, half; apply vec_ext; cbn; ring). rewrite E2. reflexivity.
  - intros E. injection E as -> -> ->. destruct p as [a b c], q as [d e f]. repeat split; apply vec_ext; cbn; field.
Qed.
Lemma spherocylinders_loop_iff : forall data xs, spherocylinders_loop xs = Some data <->
  exists ends, xs = flat_map (fun e : R * vec * vec => let '(r, p, q) := e in r :: coords p ++ coords q) ends /\ Forall2 (fun (e : R * vec * vec) s => let '(r, p, q) := e in (0 < r)%R /\ between r p q s) ends data.
Proof.
  induction data as [|s data IH]; intros xs.
  - split.
    + destruct xs as [|r [|x [|y [|z [|x' [|y' [|z' xs]]]]]]]; try discriminate; [intros _; exists []; split; [reflexivity|constructor]|]. cbn [spherocylinders_loop]. destruct (Rltb 0 r); [|discriminate]. destruct (spherocylinders_loop xs); discriminate.
    + intros (ends & -> & F). inversion F; subst. reflexivity.
  - split.
    + destruct xs as [|r [|x [|y [|z [|x' [|y' [|z' xs]]]]]]]; try discriminate. cbn [spherocylinders_loop]. destruct (Rltb 0 r) eqn:P; [|discriminate]. destruct (spherocylinders_loop xs) as [rest|] eqn:E; [|discriminate]. cbn [obind]. intros X. injection X as <- <-.
      apply IH in E. destruct E as (ends & -> & F). apply positive_true in P. exists ((r, V3 x y z, V3 x' y' z') :: ends). split; [reflexivity|]. constructor; [split; [exact P|apply between_iff; reflexivity]|exact F].
    + intros (ends & -> & F). inversion F as [|[[r p] q] ? ends' ? (P & B) F']; subst. apply between_iff in B. subst s. pose proof (proj2 (IH _) (ex_intro _ ends' (conj eq_refl F'))) as Q. cbn [flat_map]. remember (flat_map _ ends') as tl eqn:Et. clear Et.
      cbn [app coords spherocylinders_loop]. apply positive_true in P. rewrite P, Q. destruct p, q. reflexivity.
Qed.
Lemma chain_points_iff : forall ps xs, chain_points xs = Some ps <-> xs = flat_map coords ps.
Proof.
  induction ps as [|p ps IH]; intros xs.
  - split; [|intros ->; reflexivity]. destruct xs as [|x [|y [|z xs]]]; try discriminate; [reflexivity|]. cbn [chain_points]. destruct (chain_points xs); discriminate.
  - split.
    + destruct xs as [|x [|y [|z xs]]]; try discriminate. cbn [chain_points]. destruct (chain_points xs) as [rest|] eqn:E; [|discriminate]. intros X. injection X as <- <-. apply IH in E. subst xs. reflexivity.
    + intros ->. cbn [flat_map coords app chain_points]. rewrite (proj2 (IH _) eq_refl). destruct p; reflexivity.
Qed.
Lemma links_length r p ps : List.length (links r (p :: ps)) = List.length ps.
Proof. revert p. induction ps as [|q ps IH]; intros p; [reflexivity|]. change (links r (p :: q :: ps)) with (spherocylinder r p q :: links r (q :: ps)). cbn [List.length]. rewrite IH. reflexivity. Qed.
Lemma links_iff r : forall ps data, List.length ps = S (List.length data) ->
  data = links r ps <-> forall i p q s, nth_error ps i = Some p -> nth_error ps (S i) = Some q -> nth_error data i = Some s -> between r p q s.
Proof.
  induction ps as [|p ps IH]; intros data L; [discriminate L|]. destruct ps as [|q ps].
  - destruct data; [|discriminate L]. split; [intros _ i p' q' s _ _ H; destruct i; discriminate H|reflexivity].
  - destruct data as [|s data]; [discriminate L|]. injection L as L. specialize (IH data (f_equal S L)). change (links r (p :: q :: ps)) with (spherocylinder r p q :: links r (q :: ps)). split.
    + intros E. injection E as -> E. intros [|i] p' q' s' H1 H2 H3.
      * injection H1 as <-. injection H2 as <-. injection H3 as <-. apply between_iff. reflexivity.
      * exact (proj1 IH E i p' q' s' H1 H2 H3).
    + intros H. f_equal; [apply between_iff; exact (H 0%nat p q s eq_refl eq_refl eq_refl)|]. apply IH. intros i p' q' s' H1 H2 H3. exact (H (S i) p' q' s' H1 H2 H3).
Qed.
Lemma coords_length ps : List.length (flat_map coords ps) = (List.length ps * 3)%nat.
Proof. induction ps as [|p ps IH]; [reflexivity|]. cbn [flat_map coords app List.length]. rewrite IH. lia. Qed.
Lemma chain_iff t data : parse_chain scan failed t = Some data <-> exists xs, all_numbers scan failed t xs /\ chain_of xs data.
Proof.
  unfold parse_chain, chain_of. split.
  - destruct (tokenize R scan failed t) as [xs|] eqn:T; [|discriminate]. cbn [obind]. destruct (Nat.leb 7 (List.length xs)) eqn:L; [|discriminate]. destruct xs as [|r xs]; [discriminate|]. destruct (Rltb 0 r) eqn:P; [|discriminate].
    destruct (chain_points xs) as [ps|] eqn:C; [|discriminate]. cbn [obind]. intros E. injection E as <-. apply chain_points_iff in C. subst xs. apply Nat.leb_le in L. cbn [List.length] in L. rewrite coords_length in L.
    destruct ps as [|p ps]; [cbn in L; lia|]. exists (r :: flat_map coords (p :: ps)). split; [apply (all_numbers_iff scan failed stod sc); exact T|].
    assert (Len : List.length (p :: ps) = S (List.length (links r (p :: ps)))) by (rewrite links_length; reflexivity). split.
    + intros X. rewrite X in Len. cbn [List.length] in Len, L. lia.
    + exists r, (p :: ps). split; [apply positive_true; exact P|]. split; [reflexivity|]. split; [exact Len|]. apply links_iff; [exact Len|reflexivity].
  - intros (xs & N & D & r & ps & P & -> & Len & H). apply (all_numbers_iff scan failed stod sc) in N. rewrite N. cbn [obind].
    replace (Nat.leb 7 (List.length (r :: flat_map coords ps))) with true; [|symmetry; apply Nat.leb_le; cbn [List.length]; rewrite coords_length, Len; destruct data; [contradiction D; reflexivity|cbn; lia]].
    apply positive_true in P. rewrite P, (proj2 (chain_points_iff ps _) eq_refl). cbn [obind]. f_equal. symmetry. apply links_iff; assumption.
Qed.
Lemma spherocylinders_iff t data : parse_spherocylinders scan failed t = Some data <-> exists xs, all_numbers scan failed t xs /\ spherocylinders_of xs data.
Proof.
  unfold parse_spherocylinders, spherocylinders_of. split.
  - destruct (tokenize R scan failed t) as [xs|] eqn:T; [|discriminate]. cbn [obind]. destruct xs as [|x xs]; [discriminate|]. intros E. apply spherocylinders_loop_iff in E. destruct E as (ends & E & F).
    exists (x :: xs). split; [apply (all_numbers_iff scan failed stod sc); exact T|]. split; [|exists ends; auto]. intros ->. inversion F; subst. discriminate E.
  - intros (xs & N & D & ends & E & F). apply (all_numbers_iff scan failed stod sc) in N. rewrite N. cbn [obind]. rewrite (proj2 (spherocylinders_loop_iff data xs) (ex_intro _ ends (conj E F))).
    destruct xs; [|reflexivity]. destruct F as [|[[r p] q] s ends' data' _ _]; [contradiction D; reflexivity|discriminate E].
Qed.
Lemma optional_field c secs k (parse : text -> option (list (vec * vec * R))) (P : text -> list (vec * vec * R) -> Prop) d : agrees (co_fields c) secs -> (forall u e, parse u = Some e <-> P u e) ->
  match lookup (str k) (co_fields c) with None => Some [] | Some t => parse t end = Some d <-> (~ In (str k) (map fst secs) /\ d = []) \/ exists u, value secs k u /\ P u d.
Proof.
  intros A Q. pose proof (agrees_names (co_fields c) secs (str k) A) as N. destruct (lookup (str k) (co_fields c)) as [u|] eqn:L.
  - split.
    + intros E. right. exists u. split; [apply (agrees_value (co_fields c)); assumption|apply Q; exact E].
    + intros [(X & _)|(u' & V & H)]; [exfalso; apply X, N; exists u; reflexivity|]. apply (agrees_value (co_fields c) secs _ _ A) in V. apply Q. congruence.
  - split.
    + intros E. left. split; [|congruence]. intros I. apply N in I. destruct I as (v & I). discriminate I.
    + intros [(_ & ->)|(u' & V & H)]; [reflexivity|]. apply (agrees_value (co_fields c) secs _ _ A) in V. congruence.
Qed.
Lemma field_form secs k (P : list R -> list (vec * vec * R) -> Prop) d :
  (exists u xs, value secs k u /\ all_numbers scan failed u xs /\ P xs d) <-> exists u, value secs k u /\ exists xs, all_numbers scan failed u xs /\ P xs d.
Proof. split; [intros (u & xs & H1 & H2 & H3); exists u; split; [exact H1|exists xs; auto]|intros (u & H1 & xs & H2 & H3); exists u, xs; auto]. Qed.
Lemma polyspherocylinder_is t data pa sa o v ps :
  (exists c, parse_polyspherocylinder scan failed stod t = Some (c, data) /\ holds c pa sa o v ps) <->
  exists secs, shape_text scan stod [] [str "chain"; str "spherocylinders"] t secs pa sa o v ps /\ polyspherocylinder_of scan failed secs data.
Proof.
  unfold parse_polyspherocylinder, polyspherocylinder_of. split.
  - intros (c & E & (<- & <- & <- & <- & <-)). destruct (parse_generic_shape_traits scan stod t [] [str "chain"; str "spherocylinders"]) as [c'|] eqn:P; [|discriminate E]. cbn [obind] in E.
    destruct (generic_only scan failed stod sc _ _ cylinders_named t c' P) as (secs & Sh & A).
    pose proof (fun d => optional_field c' secs "chain" _ _ d A chain_iff) as C1. pose proof (fun d => optional_field c' secs "spherocylinders" _ _ d A spherocylinders_iff) as C2.
    destruct (match lookup (str "chain") (co_fields c') with None => Some [] | Some t => parse_chain scan failed t end) as [d1|]; [|discriminate E]. cbn [obind] in E.
    destruct (match lookup (str "spherocylinders") (co_fields c') with None => Some [] | Some t => parse_spherocylinders scan failed t end) as [d2|]; [|discriminate E]. cbn [obind] in E.
    destruct (d1 ++ d2) as [|x d] eqn:D; [discriminate E|]. injection E as <- <-. exists secs. split; [exact Sh|]. split; [discriminate|]. exists d1, d2. split; [symmetry; exact D|]. split.
    + rewrite field_form. apply C1. reflexivity.
    + rewrite field_form. apply C2. reflexivity.
  - intros (secs & Sh & Nd & d1 & d2 & -> & H1 & H2). destruct (generic_is scan failed stod sc _ _ t secs pa sa o v ps Sh) as (c & P & H & A). exists c. split; [|exact H]. rewrite P. cbn [obind].
    rewrite field_form in H1. apply (optional_field c secs "chain" _ _ d1 A chain_iff) in H1. rewrite H1. cbn [obind].
    rewrite field_form in H2. apply (optional_field c secs "spherocylinders" _ _ d2 A spherocylinders_iff) in H2. rewrite H2. cbn [obind]. destruct (d1 ++ d2); [contradiction Nd; reflexivity|reflexivity].
Qed.
End Final.
