From Coq Require Import ZArith Reals List Bool Permutation Lia.
From Verif Require Import OptModel TextModel TextProofs GeomModel BoxModel ScalingModel ScalingSpec.
Import ListNotations.
Local Open Scope nat_scope.

Lemma mask_ext m n : (forall a, mask_get m a = mask_get n a) -> m = n.
Proof. destruct m as [[x y] z], n as [[x' y'] z']. intros E. pose proof (E AX). pose proof (E AY). pose proof (E AZ). cbn in *. congruence. Qed.
Lemma mask_get_or m n a : mask_get (mask_or m n) a = mask_get m a || mask_get n a.
Proof. destruct m as [[x y] z], n as [[x' y'] z'], a; reflexivity. Qed.
Lemma mask_get_axis a b : mask_get (axis_mask a) b = true <-> a = b.
Proof. destruct a, b; cbn; split; congruence. Qed.
Lemma mask_eqb_eq m n : mask_eqb m n = true <-> m = n.
Proof. destruct m as [[[] []] []], n as [[[] []] []]; cbn; split; congruence. Qed.

Definition mask_of (l : list axis) : mask := fold_right (fun a m => mask_or (axis_mask a) m) (false, false, false) l.
Lemma mask_of_spec l : consists l (mask_of l).
Proof.
  intros a. induction l as [|b l IH]; cbn [mask_of fold_right In].
  - destruct a; cbn; split; [discriminate|tauto|discriminate|tauto|discriminate|tauto].
  - rewrite mask_get_or, orb_true_iff, mask_get_axis. fold (mask_of l). tauto.
Qed.
Lemma consists_eq l m : consists l m <-> m = mask_of l.
Proof.
  split; [|intros ->; apply mask_of_spec].
  intros C. apply mask_ext. intros a. destruct (C a) as [C1 C2]. destruct (mask_of_spec l a) as [D1 D2].
  destruct (mask_get m a), (mask_get (mask_of l) a); try reflexivity.
  - symmetry. apply D2, C1. reflexivity.
  - apply C2, D1. reflexivity.
Qed.

Fixpoint take (l : list axis) (used : mask) : option mask :=
  match l with [] => Some used | a :: l' => if mask_get used a then None else take l' (mask_or used (axis_mask a)) end.
Lemma take_app l l' used : take (l ++ l') used = obind (take l used) (take l').
Proof. revert used. induction l as [|a l IH]; intros used; cbn [take app]; [reflexivity|]. destruct (mask_get used a); [reflexivity|]. apply IH. Qed.
Lemma take_spec l used u : take l used = Some u <-> NoDup l /\ (forall a, In a l -> mask_get used a = false) /\ u = mask_or used (mask_of l).
Proof.
  revert used. induction l as [|a l IH]; intros used; cbn [take].
  - split; [intros [= <-]|intros (_&_& ->)].
    + split; [constructor|]. split; [intros ? []|]. apply mask_ext. intros b. rewrite mask_get_or. destruct b; cbn; rewrite orb_false_r; reflexivity.
    + f_equal. apply mask_ext. intros b. rewrite mask_get_or. destruct b; cbn; rewrite orb_false_r; reflexivity.
  - assert (O : mask_or (mask_or used (axis_mask a)) (mask_of l) = mask_or used (mask_of (a :: l))).
    { apply mask_ext. intros b. cbn [mask_of fold_right]. fold (mask_of l). rewrite !mask_get_or, orb_assoc. reflexivity. }
    destruct (mask_get used a) eqn:G.
    + split; [discriminate|]. intros (_&F&_). rewrite F in G by (left; reflexivity). discriminate.
    + rewrite IH, O. split; intros (N&F&E).
      * split; [|split; [|exact E]].
        -- constructor; [|exact N]. intros I. specialize (F a I). rewrite mask_get_or in F. apply orb_false_iff in F as [_ F].
           assert (mask_get (axis_mask a) a = true) by (apply mask_get_axis; reflexivity). congruence.
        -- intros b [<-|I]; [exact G|]. specialize (F b I). rewrite mask_get_or in F. apply orb_false_iff in F. tauto.
      * inversion N as [|? ? N1 N2]; subst. split; [exact N2|]. split; [|reflexivity].
        intros b I. rewrite mask_get_or, F by (right; exact I). cbn. destruct (mask_get (axis_mask a) b) eqn:H; [|reflexivity].
        apply mask_get_axis in H. subst b. contradiction.
Qed.
Lemma take_full l : take l (false, false, false) = Some (true, true, true) <-> Permutation l [AX; AY; AZ].
Proof.
  rewrite take_spec. split.
  - intros (N&_&E). apply NoDup_Permutation; [exact N|repeat constructor; cbn; intuition congruence|].
    intros a. transitivity (True).
    + split; [trivial|intros _]. apply mask_of_spec. assert (G : mask_get (true, true, true) a = true) by (destruct a; reflexivity).
      rewrite E, mask_get_or in G. destruct a; exact G.
    + split; [|trivial]. intros _. destruct a; cbn; tauto.
  - intros P. split; [|split].
    + eapply Permutation_NoDup; [symmetry; exact P|]. repeat constructor; cbn; intuition congruence.
    + intros a _. destruct a; reflexivity.
    + apply mask_ext. intros a. rewrite mask_get_or. replace (mask_get (mask_of l) a) with true; [rewrite orb_true_r; destruct a; reflexivity|].
      symmetry. apply mask_of_spec. apply (Permutation_in a (Permutation_sym P)). destruct a; cbn; tauto.
Qed.

Lemma char_axis_some c a : char_axis c = Some a <-> c = letter a.
Proof.
  unfold char_axis. split.
  - destruct (Z.eqb_spec c 120); [intros [= <-]; assumption|]. destruct (Z.eqb_spec c 121); [intros [= <-]; assumption|].
    destruct (Z.eqb_spec c 122); [intros [= <-]; assumption|discriminate].
  - intros ->. destruct a; reflexivity.
Qed.
Lemma register_spec c used a u : registerScalingDirection c used = Some (a, u) <-> c = letter a /\ take [a] used = Some u.
Proof.
  unfold registerScalingDirection. cbn [take]. split.
  - destruct (char_axis c) as [b|] eqn:C; cbn; [|discriminate]. apply char_axis_some in C. destruct (mask_get used b) eqn:G; [discriminate|].
    intros [= <- <-]. rewrite G. split; [exact C|reflexivity].
  - intros [E T]. rewrite (proj2 (char_axis_some c a) E). cbn. destruct (mask_get used a); [discriminate|]. congruence.
Qed.
Lemma registerAll_spec l used u : registerAll l used = Some u <-> exists as', l = map letter as' /\ take as' used = Some u.
Proof.
  revert used. induction l as [|c l IH]; intros used; cbn [registerAll].
  - split; [intros [= <-]; exists []; split; reflexivity|]. intros ([|a as']&E&T); [exact T|discriminate].
  - split.
    + destruct (registerScalingDirection c used) as [[a v]|] eqn:R; cbn; [|discriminate]. intros H.
      apply register_spec in R as [-> R]. apply IH in H as (as'& -> &T). exists (a :: as'). split; [reflexivity|].
      change (a :: as') with ([a] ++ as'). rewrite take_app, R. exact T.
    + intros ([|a as']&E&T); [discriminate|]. cbn [map] in E. injection E as -> ->.
      change (a :: as') with ([a] ++ as') in T. rewrite take_app in T. destruct (take [a] used) as [v|] eqn:V; [|discriminate].
      rewrite (proj2 (register_spec (letter a) used a v) (conj eq_refl V)). cbn. apply IH. exists as'. split; [reflexivity|exact T].
Qed.
Definition grp (l : list axis) : direction := match l with [] => [] | _ => [mask_of l] end.
Lemma dir_and_grp l a : dir_and (grp l) [axis_mask a] = Some (grp (l ++ [a])).
Proof.
  destruct l as [|b l]; cbn [grp app].
  - cbn. do 2 f_equal. apply mask_ext. intros c. rewrite mask_get_or. destruct c; cbn; rewrite orb_false_r; reflexivity.
  - cbn [dir_and]. do 2 f_equal. apply consists_eq. intros c. rewrite mask_get_or, orb_true_iff, mask_get_axis.
    rewrite (mask_of_spec (b :: l) c). cbn [In]. rewrite in_app_iff. cbn [In]. tauto.
Qed.
Lemma parseGroup_spec l used bs u g : parseGroup l used (grp bs) = Some (u, g) <->
  exists as', l = map letter as' /\ take as' used = Some u /\ g = grp (bs ++ as').
Proof.
  revert used bs. induction l as [|c l IH]; intros used bs; cbn [parseGroup].
  - split; [intros [= <- <-]; exists []; rewrite app_nil_r; repeat split|]. intros ([|a as']&E&T&G); [|discriminate].
    rewrite app_nil_r in G. cbn in T. congruence.
  - split.
    + destruct (registerScalingDirection c used) as [[a v]|] eqn:R; cbn [obind fst snd]; [|discriminate].
      rewrite dir_and_grp. cbn [obind]. intros H.
      apply register_spec in R as [-> R]. apply IH in H as (as'& -> &T& ->). exists (a :: as'). split; [reflexivity|].
      split; [|rewrite <- app_assoc; reflexivity]. change (a :: as') with ([a] ++ as'). rewrite take_app, R. exact T.
    + intros ([|a as']&E&T&G); [discriminate|]. cbn [map] in E. injection E as -> ->.
      change (a :: as') with ([a] ++ as') in T. rewrite take_app in T. destruct (take [a] used) as [v|] eqn:V; [|discriminate].
      rewrite (proj2 (register_spec (letter a) used a v) (conj eq_refl V)). cbn [obind fst snd]. rewrite dir_and_grp. cbn [obind].
      apply IH. exists as'. split; [reflexivity|]. split; [exact T|]. rewrite <- app_assoc. exact G.
Qed.
Lemma parseBrackets_spec c l a b : parseBrackets c l = Some (a, b) <-> l = a ++ c :: b /\ ~ In c a.
Proof.
  revert a. induction l as [|d l IH]; intros a; cbn [parseBrackets].
  - split; [discriminate|]. intros [E _]. destruct a; discriminate.
  - destruct (Z.eqb_spec d c) as [->|N].
    + split; [intros [= <- <-]; split; [reflexivity|intros []]|]. intros [E I]. destruct a as [|e a]; [cbn in E; congruence|].
      cbn in E. injection E as -> ->. exfalso. apply I. left; reflexivity.
    + split.
      * destruct (parseBrackets c l) as [[a' b']|] eqn:P; cbn [obind fst snd]; [|discriminate]. intros [= <- <-]. destruct (proj1 (IH a') eq_refl) as [-> I].
        split; [reflexivity|]. intros [E|I']; [congruence|contradiction].
      * intros [E I]. destruct a as [|e a]; cbn in E; [congruence|]. injection E as -> ->.
        rewrite (proj2 (IH a)); [reflexivity|]. split; [reflexivity|]. intros I'. apply I. right; exact I'.
Qed.
Lemma letters_no c l : (c < 120)%Z -> ~ In c (map letter l).
Proof. intros L I. apply in_map_iff in I as (a&E&_). destruct a; cbn in E; lia. Qed.

(** Alternatives collected so far use only used directions, and at least one each. *)
Definition within (dir : direction) (used : mask) : Prop :=
  forall m, In m dir -> (exists a, mask_get m a = true) /\ (forall a, mask_get m a = true -> mask_get used a = true).
Definition gm (p : piece) : direction := map mask_of (scaled p).
Lemma scaled_axes p g : In g (scaled p) -> g <> [] /\ g = axes p.
Proof. destruct p as [a|[|a l]|l]; cbn; intros H; try contradiction; destruct H as [<-|[]]; split; congruence. Qed.
Lemma within_step dir used p u : within dir used -> take (axes p) used = Some u ->
  dir_or dir (gm p) = dir ++ gm p /\ within (dir ++ gm p) u.
Proof.
  intros W T. apply take_spec in T as (N&F& ->).
  assert (I0 : forall m, In m (gm p) -> (exists a, mask_get m a = true) /\ (forall a, mask_get m a = true -> In a (axes p))).
  { intros m I. apply in_map_iff in I as (g&<-&I). apply scaled_axes in I as [NE ->]. split.
    - destruct (axes p) as [|a l]; [congruence|]. exists a. apply mask_of_spec. left; reflexivity.
    - intros a G. apply mask_of_spec, G. }
  split.
  - assert (D : gm p = [] \/ exists m, gm p = [m]) by (unfold gm; destruct p as [a|[|a l]|l]; cbn; eauto).
    destruct D as [D|[m D]]; rewrite D; cbn; [rewrite app_nil_r; reflexivity|].
    destruct (existsb (mask_eqb m) dir) eqn:E; [|reflexivity]. exfalso. apply existsb_exists in E as (n&I&E). apply mask_eqb_eq in E. subst n.
    destruct (I0 m) as [[a G] H]; [rewrite D; left; reflexivity|]. specialize (H a G). apply F in H. apply W in I as [_ I]. rewrite (I a G) in H. discriminate.
  - intros m I. apply in_app_iff in I as [I|I].
    + destruct (W m I) as [W1 W2]. split; [exact W1|]. intros a G. rewrite mask_get_or, (W2 a G). reflexivity.
    + destruct (I0 m I) as [W1 W2]. split; [exact W1|]. intros a G. rewrite mask_get_or, orb_true_iff. right. apply mask_of_spec, W2, G.
Qed.
Lemma gm_free a : gm (Free a) = [axis_mask a].
Proof. destruct a; reflexivity. Qed.
Lemma gm_together l : gm (Together l) = grp l.
Proof. destruct l; reflexivity. Qed.

Lemma parse_sound fuel : forall l used dir u d, within dir used -> parseLoop fuel l used dir = Some (u, d) ->
  exists ps, render ps = l /\ take (all_axes ps) used = Some u /\ d = dir ++ map mask_of (groups ps).
Proof.
  induction fuel as [|fuel IH]; intros [|c l] used dir u d W H; cbn [parseLoop] in H.
  - injection H as <- <-. exists []. rewrite app_nil_r. repeat split.
  - discriminate.
  - injection H as <- <-. exists []. rewrite app_nil_r. repeat split.
  - assert (Step : forall p rest v, written p ++ rest = c :: l -> take (axes p) used = Some v ->
      parseLoop fuel rest v (dir_or dir (gm p)) = Some (u, d) ->
      exists ps, render ps = c :: l /\ take (all_axes ps) used = Some u /\ d = dir ++ map mask_of (groups ps)).
    { intros p rest v E T P. destruct (within_step _ _ _ _ W T) as [D W']. rewrite D in P.
      apply IH in P as (ps&R&T'& ->); [|exact W']. exists (p :: ps). split; [|split].
      - cbn [render flat_map]. fold (render ps). rewrite R. exact E.
      - cbn [all_axes flat_map]. fold (all_axes ps). rewrite take_app, T. exact T'.
      - cbn [groups flat_map]. fold (groups ps). rewrite map_app, <- app_assoc. reflexivity. }
    destruct (char_axis c) as [a|] eqn:C.
    + destruct (registerScalingDirection c used) as [[b v]|] eqn:R; cbn [obind fst snd] in H; [|discriminate].
      apply register_spec in R as [-> R]. apply (Step (Free b) l v); [reflexivity|exact R|]. rewrite gm_free. exact H.
    + destruct (Z.eqb_spec c 40) as [->|N40].
      * destruct (parseBrackets 41 l) as [[x y]|] eqn:B; cbn [obind fst snd] in H; [|discriminate].
        destruct (parseGroup x used []) as [[v g]|] eqn:G; cbn [obind fst snd] in H; [|discriminate].
        apply parseBrackets_spec in B as [-> _]. apply (parseGroup_spec x used []) in G as (as'& -> &T& ->).
        apply (Step (Together as') y v); [|exact T|rewrite gm_together; exact H]. cbn. rewrite <- app_assoc. reflexivity.
      * destruct (Z.eqb_spec c 91) as [->|N91]; [|discriminate].
        destruct (parseBrackets 93 l) as [[x y]|] eqn:B; cbn [obind fst snd] in H; [|discriminate].
        destruct (registerAll x used) as [v|] eqn:G; cbn [obind] in H; [|discriminate].
        apply parseBrackets_spec in B as [-> _]. apply registerAll_spec in G as (as'& -> &T).
        apply (Step (Fixed as') y v); [|exact T|exact H]. cbn. rewrite <- app_assoc. reflexivity.
Qed.
Lemma parse_complete ps : forall fuel used dir u, within dir used -> length (render ps) <= fuel -> take (all_axes ps) used = Some u ->
  parseLoop fuel (render ps) used dir = Some (u, dir ++ map mask_of (groups ps)).
Proof.
  induction ps as [|p ps IH]; intros fuel used dir u W L T.
  - cbn in T. injection T as ->. cbn [groups flat_map map]. rewrite app_nil_r. destruct fuel; reflexivity.
  - cbn [all_axes flat_map] in T. fold (all_axes ps) in T. rewrite take_app in T.
    destruct (take (axes p) used) as [v|] eqn:V; [|discriminate]. cbn [obind] in T.
    destruct (within_step _ _ _ _ W V) as [D W'].
    cbn [render flat_map] in *. fold (render ps) in *. rewrite app_length in L.
    assert (L' : exists fuel', fuel = S fuel' /\ length (render ps) <= fuel').
    { destruct fuel as [|fuel']; [destruct p; cbn in L; lia|]. exists fuel'. split; [reflexivity|]. destruct p; cbn [written app length] in L; lia. }
    destruct L' as (fuel'& -> &L'). specialize (IH fuel' v _ u W' L' T).
    replace (dir ++ map mask_of (groups (p :: ps))) with ((dir ++ gm p) ++ map mask_of (groups ps))
      by (cbn [groups flat_map]; fold (groups ps); rewrite map_app, <- app_assoc; reflexivity).
    rewrite <- D in IH at 1. destruct p as [a|l|l]; cbn [written app].
    + cbn [parseLoop]. rewrite (proj2 (char_axis_some _ a) eq_refl), (proj2 (register_spec (letter a) used a v) (conj eq_refl V)).
      cbn [obind fst snd]. rewrite gm_free in *. exact IH.
    + cbn [parseLoop]. change (char_axis 40) with (@None axis). cbv iota. change (Z.eqb 40 40) with true. cbv iota.
      rewrite <- app_assoc. cbn [app].
      rewrite (proj2 (parseBrackets_spec 41 _ (map letter l) (render ps)) (conj eq_refl (letters_no 41 l ltac:(lia)))). cbn [obind fst snd].
      change (parseGroup (map letter l) used []) with (parseGroup (map letter l) used (grp [])).
      rewrite (proj2 (parseGroup_spec (map letter l) used [] v (grp l))); [|exists l; repeat split; exact V]. cbn [obind fst snd].
      rewrite gm_together in *. exact IH.
    + cbn [parseLoop]. change (char_axis 91) with (@None axis). cbv iota. change (Z.eqb 91 40) with false. change (Z.eqb 91 91) with true. cbv iota.
      rewrite <- app_assoc. cbn [app].
      rewrite (proj2 (parseBrackets_spec 93 _ (map letter l) (render ps)) (conj eq_refl (letters_no 93 l ltac:(lia)))). cbn [obind fst snd].
      rewrite (proj2 (registerAll_spec (map letter l) used v)); [|exists l; split; [reflexivity|exact V]]. cbn [obind fst snd].
      exact IH.
Qed.
Lemma consists_groups gs d : Forall2 consists gs d <-> d = map mask_of gs.
Proof.
  split.
  - intros F. induction F as [|g m gs d C F IH]; [reflexivity|]. cbn [map]. f_equal; [apply consists_eq, C|exact IH].
  - intros ->. induction gs as [|g gs IH]; constructor; [apply mask_of_spec|exact IH].
Qed.
Lemma parse_direction_iff s d : parse_direction s = Some d <->
  exists ps, render ps = s /\ Permutation (all_axes ps) [AX; AY; AZ] /\ Forall2 consists (groups ps) d.
Proof.
  assert (W : within [] (false, false, false)) by (intros m []).
  unfold parse_direction. split.
  - destruct (parseLoop (length s) s (false, false, false) []) as [[u e]|] eqn:P; cbn [obind fst snd]; [|discriminate].
    destruct (mask_eqb u (true, true, true)) eqn:E; [|discriminate]. intros [= ->]. apply mask_eqb_eq in E. subst u.
    apply (parse_sound _ _ _ _ _ _ W) in P as (ps&R&T& ->). exists ps. split; [exact R|]. split; [apply take_full, T|].
    apply consists_groups. reflexivity.
  - intros (ps& <- &P&F). apply consists_groups in F. apply take_full in P.
    rewrite (parse_complete ps _ _ _ _ W (le_n _) P). cbn [obind fst snd]. rewrite (proj2 (mask_eqb_eq _ _) eq_refl). f_equal. symmetry. exact F.
Qed.

(** Conditions of the matcher add nothing. *)
Lemma count_letters a l : countc (letter a) (map letter l) = count_occ axis_dec l a.
Proof.
  induction l as [|b l IH]; [reflexivity|]. unfold countc in *. cbn [map filter count_occ].
  destruct (axis_dec b a) as [->|N]; [rewrite Z.eqb_refl; cbn [length]; rewrite IH; reflexivity|].
  replace (letter a =? letter b)%Z with false; [exact IH|]. symmetry. apply Z.eqb_neq. destruct a, b; cbn; congruence.
Qed.
Lemma countc_app c l l' : countc c (l ++ l') = countc c l + countc c l'.
Proof. unfold countc. rewrite filter_app, app_length. reflexivity. Qed.
Lemma count_render a ps : countc (letter a) (render ps) = count_occ axis_dec (all_axes ps) a.
Proof.
  induction ps as [|p ps IH]; [reflexivity|]. cbn [render all_axes flat_map]. fold (render ps) (all_axes ps).
  rewrite countc_app, count_occ_app, IH. f_equal. rewrite <- count_letters.
  destruct p as [b|l|l]; cbn [written axes map]; [reflexivity| |]; rewrite !countc_app; destruct a; cbn; lia.
Qed.
Lemma permutation_count l a : Permutation l [AX; AY; AZ] -> count_occ axis_dec l a = 1.
Proof. intros P. rewrite (proj1 (Permutation_count_occ axis_dec _ _) P). destruct a; reflexivity. Qed.
Lemma manual_iff s : manualDirection s = parse_direction s.
Proof.
  unfold manualDirection. destruct (forallb _ s && _ && _ && _) eqn:C; [reflexivity|]. symmetry.
  destruct (parse_direction s) as [d|] eqn:P; [|reflexivity]. exfalso. apply parse_direction_iff in P as (ps& <- &P&_).
  assert (N : forall a, countc (letter a) (render ps) = 1) by (intros a; rewrite count_render; apply permutation_count, P).
  pose proof (N AX) as NX. pose proof (N AY) as NY. pose proof (N AZ) as NZ. cbn [letter] in *.
  rewrite NX, NY, NZ in C. cbn [Nat.eqb andb] in C. rewrite !andb_true_r in C.
  enough (F : forallb (fun c => existsb (Z.eqb c) [120; 121; 122; 40; 41; 91; 93]%Z) (render ps) = true) by congruence.
  apply forallb_forall. intros c I. apply in_flat_map in I as (p&_&I).
  assert (LE : forall l, In c (map letter l) -> (c = 120 \/ c = 121 \/ c = 122)%Z) by (intros l J; apply in_map_iff in J as ([]&<-&_); cbn; tauto).
  assert (K : In c [120; 121; 122; 40; 41; 91; 93]%Z).
  { destruct p as [a|l|l]; cbn [written] in I.
    - apply (LE [a]) in I. cbn. intuition congruence.
    - apply in_app_iff in I as [[<-|[]]|I]; [cbn; tauto|]. apply in_app_iff in I as [I|[<-|[]]]; [apply LE in I; cbn; intuition congruence|cbn; tauto].
    - apply in_app_iff in I as [[<-|[]]|I]; [cbn; tauto|]. apply in_app_iff in I as [I|[<-|[]]]; [apply LE in I; cbn; intuition congruence|cbn; tauto]. }
  apply existsb_exists. exists c. split; [exact K|apply Z.eqb_refl].
Qed.
Lemma named_not_written s gs : In (s, gs) named -> parse_direction s = None.
Proof. intros I. cbn in I. repeat destruct I as [I|I]; try contradiction; injection I as <- _; reflexivity. Qed.
Lemma scaling_direction_iff s d : scalingDirection s = Some d <->
  (exists gs, In (s, gs) named /\ Forall2 consists gs d) \/
  (exists ps, render ps = s /\ Permutation (all_axes ps) [AX; AY; AZ] /\ Forall2 consists (groups ps) d).
Proof.
  rewrite <- parse_direction_iff.
  assert (NI : forall t gs, In (t, gs) named -> forall r, (Some (map mask_of gs) = r) -> s = t ->
    (forall gs', In (s, gs') named -> gs' = gs) -> (r = Some d <-> (exists gs, In (s, gs) named /\ Forall2 consists gs d) \/ parse_direction s = Some d)).
  { intros t gs I r <- -> U. split.
    - intros [= <-]. left. exists gs. split; [exact I|]. apply consists_groups. reflexivity.
    - intros [(gs'&I'&F)|P]; [|rewrite (named_not_written _ _ I) in P; discriminate].
      apply U in I'. subst gs'. apply consists_groups in F. rewrite F. reflexivity. }
  unfold scalingDirection.
  destruct (text_eqb s isotropic_name) eqn:E1.
  { apply text_eqb_eq in E1. apply (NI isotropic_name [[AX; AY; AZ]]); [cbn; tauto|reflexivity|exact E1|].
    subst s. intros gs' I. unfold named, isotropic_name, anisotropic_name in I. cbn [In app] in I. repeat destruct I as [I|I]; try contradiction; first [discriminate I | inversion I; reflexivity]. }
  destruct (text_eqb s (anisotropic_name [120]%Z)) eqn:E2.
  { apply text_eqb_eq in E2. apply (NI (anisotropic_name [120]%Z) [[AX]; [AY; AZ]]); [cbn; tauto|reflexivity|exact E2|].
    subst s. intros gs' I. unfold named, isotropic_name, anisotropic_name in I. cbn [In app] in I. repeat destruct I as [I|I]; try contradiction; first [discriminate I | inversion I; reflexivity]. }
  destruct (text_eqb s (anisotropic_name [121]%Z)) eqn:E3.
  { apply text_eqb_eq in E3. apply (NI (anisotropic_name [121]%Z) [[AY]; [AZ; AX]]); [cbn; tauto|reflexivity|exact E3|].
    subst s. intros gs' I. unfold named, isotropic_name, anisotropic_name in I. cbn [In app] in I. repeat destruct I as [I|I]; try contradiction; first [discriminate I | inversion I; reflexivity]. }
  destruct (text_eqb s (anisotropic_name [122]%Z)) eqn:E4.
  { apply text_eqb_eq in E4. apply (NI (anisotropic_name [122]%Z) [[AZ]; [AX; AY]]); [cbn; tauto|reflexivity|exact E4|].
    subst s. intros gs' I. unfold named, isotropic_name, anisotropic_name in I. cbn [In app] in I. repeat destruct I as [I|I]; try contradiction; first [discriminate I | inversion I; reflexivity]. }
  destruct (text_eqb s (anisotropic_name [120; 121; 122]%Z)) eqn:E5.
  { apply text_eqb_eq in E5. apply (NI (anisotropic_name [120; 121; 122]%Z) [[AX]; [AY]; [AZ]]); [cbn; tauto|reflexivity|exact E5|].
    subst s. intros gs' I. unfold named, isotropic_name, anisotropic_name in I. cbn [In app] in I. repeat destruct I as [I|I]; try contradiction; first [discriminate I | inversion I; reflexivity]. }
  rewrite manual_iff. split; [tauto|]. intros [(gs&I&_)|P]; [|exact P]. exfalso. cbn in I.
  repeat destruct I as [I|I]; try contradiction; injection I as <- _; unfold isotropic_name, anisotropic_name in *; cbn in *; discriminate.
Qed.
