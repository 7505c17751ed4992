(** Proofs about orthorhombic arrangements: the whole arrangement. *)
From Coq Require Import Reals List Arith ZArith Bool Lia Lra.
From Verif Require Import GeomModel GeomProofs PbcModel RotSpec RotProofs OrthoModel OrthoSpec OrthoProofs.
Import ListNotations.
Open Scope nat_scope.

Lemma mod2 k : Nat.eqb (k mod 2) 1 = Nat.odd k.
Proof. rewrite <- Nat.bit0_mod, Nat.bit0_odd. destruct (Nat.odd k); reflexivity. Qed.
Lemma mod2e k : Nat.eqb (k mod 2) 0 = Nat.even k.
Proof. rewrite <- Nat.bit0_mod, Nat.bit0_odd, <- Nat.negb_even. destruct (Nat.even k); reflexivity. Qed.
Lemma odd_not_even k : Nat.Odd k -> Nat.Even k -> False. Proof. intros (a & A) (b & B). lia. Qed.

Definition middle (lines : axis -> nat) (cell box : vec) : vec := vmake (fun x => ((vget box x - INR (lines x - 1) * vget cell x) / 2)%R).
Lemma vget_make f x : vget (vmake f) x = f x. Proof. destruct x; reflexivity. Qed.

Lemma place_row a lines cell box t r : (forall x, 0 < lines x) -> (forall x, index_at t x = r x) -> in_row lines cell box r (sh_pos (place a cell (middle lines cell box) t)).
Proof.
  intros P H x. cbn [place sh_pos]. unfold middle. rewrite !vget_make, H, minus_INR by (apply P). cbn [INR]. field.
Qed.
Lemma place_oriented a cell offset t layer : index_at t (polar_axis a) = layer -> oriented a layer (sh_rot (place a cell offset t)).
Proof.
  intros H. cbn [place sh_rot]. rewrite H, mod2. unfold is_antiferro, is_anticlinic. eexists. eexists. split; [reflexivity|].
  destruct (Nat.odd layer) eqn:O; [apply Nat.odd_spec in O|rewrite <- Nat.negb_even in O; apply negb_false_iff, Nat.even_spec in O].
  - rewrite !andb_true_r. split; [|split; [|split]].
    + intros [E|E]; [destruct (odd_not_even _ O E)|]. destruct (clinic a); try congruence; apply about_axis.
    + intros _ ->. apply about_axis.
    + intros [E|E]; [destruct (odd_not_even _ O E)|]. destruct (polar a); try congruence; reflexivity.
    + intros _ ->. apply about_axis.
  - rewrite !andb_false_r. split; [|split; [|split]]; try (intros E; destruct (odd_not_even _ E O)); [intros _; apply about_axis|reflexivity].
Qed.
Lemma row_unique lines cell box r p q : in_row lines cell box r p -> in_row lines cell box r q -> p = q.
Proof. intros A B. apply vec_ext_axis. intros x. specialize (A x). specialize (B x). lra. Qed.
Lemma orient_unique a layer m m' : oriented a layer m -> oriented a layer m' -> m = m'.
Proof.
  intros (t & h & -> & A & B & C & D) (t' & h' & -> & A' & B' & C' & D'). f_equal.
  - destruct (Nat.Even_or_Odd layer) as [E|E].
    + apply (about_one _ _ _ _ (unit_one _) (A (or_introl E)) (A' (or_introl E))).
    + destruct (clinic a) eqn:K.
      * assert (K' : Nat.Even layer \/ clinic a <> Anticlinic) by (right; rewrite K; discriminate). rewrite K in K'. apply (about_one _ _ _ _ (unit_one _) (A K') (A' K')).
      * assert (K' : Nat.Even layer \/ clinic a <> Anticlinic) by (right; rewrite K; discriminate). rewrite K in K'. apply (about_one _ _ _ _ (unit_one _) (A K') (A' K')).
      * apply (about_one _ _ _ _ (unit_one _) (B E eq_refl) (B' E eq_refl)).
  - destruct (Nat.Even_or_Odd layer) as [E|E].
    + rewrite (C (or_introl E)), (C' (or_introl E)). reflexivity.
    + destruct (polar a) eqn:K.
      * rewrite C, C' by (right; discriminate). reflexivity.
      * rewrite C, C' by (right; discriminate). reflexivity.
      * apply (about_one _ _ _ _ (unit_one _) (D E eq_refl) (D' E eq_refl)).
Qed.
Lemma arranged_unique a n lines cell box l l' : arranged a n lines cell box l -> arranged a n lines cell box l' -> l = l'.
Proof.
  intros (A & B) (A' & B'). assert (L : List.length l = List.length l') by congruence.
  assert (N : forall m, nth_error l m = nth_error l' m).
  { intros m. destruct (nth_error l m) as [s|] eqn:E.
    - destruct (nth_error l' m) as [s'|] eqn:E'; [|apply nth_error_None in E'; apply nth_error_Some_lt in E || (assert (m < List.length l) by (apply nth_error_Some; congruence); lia)].
      destruct (B _ _ E) as (P & Q). destruct (B' _ _ E') as (P' & Q'). destruct s as [sp sr], s' as [sp' sr']. cbn [sh_pos sh_rot] in *. rewrite (row_unique _ _ _ _ _ _ P P'), (orient_unique _ _ _ _ Q Q'). reflexivity.
    - symmetry. apply nth_error_None. apply nth_error_None in E. lia. }
  clear - N. revert l' N. induction l as [|s l IH]; intros [|s' l'] N; auto; try (specialize (N 0); discriminate).
  pose proof (N 0) as E. injection E as ->. f_equal. apply IH. intros m. apply (N (S m)).
Qed.
Lemma placed_arranged a n lines cell box : (forall x, 0 < lines x) -> arranged a n lines cell box (place_all a n cell (middle lines cell box) (visited lines) []).
Proof.
  intros P. rewrite place_all_map. cbn [app List.length]. rewrite Nat.sub_0_r. split.
  - rewrite map_length, firstn_length, len_visited by auto. reflexivity.
  - intros m s H. rewrite nth_error_map in H. destruct (nth_error (firstn n (visited lines)) m) as [t|] eqn:E; [|discriminate]. injection H as <-.
    assert (M : m < Nat.min n (sites lines)) by (rewrite <- (len_visited lines), <- firstn_length by auto; apply nth_error_Some; congruence).
    assert (E' : nth_error (visited lines) m = Some t).
    { rewrite <- (firstn_skipn n (visited lines)), nth_error_app1; auto. rewrite firstn_length, len_visited by auto. exact M. }
    rewrite nth_visited in E' by (auto; lia). injection E' as <-. split; [apply place_row; auto; intros []; reflexivity|apply place_oriented; destruct (polar_axis a); reflexivity].
Qed.

Theorem arrange_whole a n lines cell box l :
  arrange a n lines cell box = Some l <-> 0 < n /\ fits lines cell box /\ layers_match a lines /\ arranged a n lines cell box l.
Proof.
  assert (Q : forall x, 0 < lines x -> ((INR (lines x) - 1) * vget cell x < vget box x <-> 0 < vget (middle lines cell box) x)%R).
  { intros x H. unfold middle. rewrite vget_make, minus_INR by apply H. cbn [INR]. split; intros; lra. }
  assert (LM : negb (is_antiferro a) || Nat.eqb (lines (polar_axis a) mod 2) 0 = true <-> layers_match a lines).
  { unfold layers_match, is_antiferro. rewrite mod2e, <- Nat.even_spec. destruct (polar a); cbn; split; auto; discriminate. }
  unfold arrange. fold (middle lines cell box). split.
  - destruct (_ && _) eqn:C; [|discriminate]. rewrite !andb_true_iff, !all_axes_t, Nat.ltb_lt in C. destruct C as (((C1 & C2) & C3) & C4).
    destruct (_ || _) eqn:D; [|discriminate]. destruct (all_axes _) eqn:O; [|discriminate]. rewrite all_axes_t in O. intros E. injection E as <-.
    assert (P : forall x, 0 < lines x) by (intros x; apply Nat.ltb_lt, C2).
    split; [exact C1|]. split; [|split; [apply LM; reflexivity|apply placed_arranged, P]].
    intros x. split; [apply P|]. split; [apply rltb_t, C3|]. split; [apply rltb_t, C4|]. apply Q; auto. apply rltb_t, O.
  - intros (H & F & M & A). assert (P : forall x, 0 < lines x) by (intros x; apply F).
    assert (C : Nat.ltb 0 n && all_axes (fun x => Nat.ltb 0 (lines x)) && all_axes (fun x => Rltb 0 (vget cell x)) && all_axes (fun x => Rltb 0 (vget box x)) = true).
    { rewrite !andb_true_iff, !all_axes_t, Nat.ltb_lt. repeat split; auto; intros x; try apply rltb_t; try apply Nat.ltb_lt; apply F. }
    rewrite C. apply LM in M. rewrite M.
    assert (O : all_axes (fun x => Rltb 0 (vget (middle lines cell box) x)) = true) by (apply all_axes_t; intros x; apply rltb_t, Q; auto; apply F). rewrite O.
    f_equal. apply (arranged_unique a n lines cell box); auto. apply placed_arranged, P.
Qed.

(** *** What follows *)
Section Arranged.
Variables (a : arranging) (n : nat) (lines : axis -> nat) (cell box : vec) (l : list shape).
Hypothesis ok : arrange a n lines cell box = Some l.
Lemma ok_facts : 0 < n /\ fits lines cell box /\ layers_match a lines /\ arranged a n lines cell box l. Proof. apply arrange_whole, ok. Qed.
Lemma site_bound m s : nth_error l m = Some s -> m < n /\ m < sites lines.
Proof. intros H. destruct ok_facts as (_ & _ & _ & L & _). assert (m < List.length l) by (apply nth_error_Some; congruence). lia. Qed.
Lemma row_le m s x : nth_error l m = Some s -> (0 <= INR (row lines m x) <= INR (lines x) - 1)%R.
Proof.
  intros H. destruct (site_bound m s H) as (_ & B). destruct ok_facts as (_ & F & _). assert (P : forall x, 0 < lines x) by (intros y; apply F).
  pose proof (row_bound lines P m x B) as R1. split; [apply pos_INR|]. apply le_INR in R1. rewrite S_INR in R1. lra.
Qed.
Theorem inside m s x : nth_error l m = Some s -> (0 < vget (sh_pos s) x < vget box x)%R.
Proof.
  intros H. destruct ok_facts as (_ & F & _ & _ & A). destruct (A _ _ H) as (P & _). specialize (P x). destruct (F x) as (_ & C & B & Q). pose proof (row_le m s x H) as (U & V).
  assert (W : ((INR (row lines m x) - (INR (lines x) - 1) / 2) * vget cell x <= (INR (lines x) - 1) / 2 * vget cell x)%R) by (apply Rmult_le_compat_r; lra).
  assert (W' : (- ((INR (lines x) - 1) / 2) * vget cell x <= (INR (row lines m x) - (INR (lines x) - 1) / 2) * vget cell x)%R) by (apply Rmult_le_compat_r; lra).
  lra.
Qed.
Theorem apart m m' s s' : nth_error l m = Some s -> nth_error l m' = Some s' -> m <> m' ->
  exists x, forall k : Z, (Rmin (vget cell x) (vget box x - (INR (lines x) - 1) * vget cell x) <= Rabs (vget (sh_pos s) x - vget (sh_pos s') x + IZR k * vget box x))%R.
Proof.
  intros H H' N. destruct ok_facts as (_ & F & _ & _ & A). destruct (A _ _ H) as (P & _). destruct (A _ _ H') as (P' & _). assert (Q : forall x, 0 < lines x) by (intros y; apply F).
  assert (X : exists x, row lines m x <> row lines m' x).
  { destruct (Nat.eq_dec (row lines m AX) (row lines m' AX)) as [E1|]; [|eauto]. destruct (Nat.eq_dec (row lines m AY) (row lines m' AY)) as [E2|]; [|eauto].
    destruct (Nat.eq_dec (row lines m AZ) (row lines m' AZ)) as [E3|]; [|eauto]. destruct N. apply (row_apart lines Q). intros []; assumption. }
  destruct X as (x & X). exists x. intros k. specialize (P x). specialize (P' x). destruct (F x) as (_ & C & B & G). pose proof (row_le m s x H) as (U & V). pose proof (row_le m' s' x H') as (U' & V').
  remember (vget box x) as b. remember (vget cell x) as c. remember (INR (lines x) - 1)%R as w. clear Heqb Heqc Heqw.
  assert (D : (vget (sh_pos s) x - vget (sh_pos s') x = (INR (row lines m x) - INR (row lines m' x)) * c)%R) by lra. rewrite D.
  assert (O : (1 <= INR (row lines m x) - INR (row lines m' x) \/ INR (row lines m x) - INR (row lines m' x) <= -1)%R).
  { destruct (Nat.lt_total (row lines m x) (row lines m' x)) as [L|[L|L]]; [right| contradiction|left]; apply le_INR in L; rewrite S_INR in L; lra. }
  remember (INR (row lines m x) - INR (row lines m' x))%R as d. assert (DW : (- w <= d <= w)%R) by lra. clear Heqd U V U' V' P P' D.
  assert (E1 : (d * c <= w * c)%R) by (apply Rmult_le_compat_r; lra). assert (E2 : (- w * c <= d * c)%R) by (apply Rmult_le_compat_r; lra).
  assert (K : (k = 0 \/ 1 <= k \/ k <= -1)%Z) by lia. destruct K as [K|[K|K]].
  - subst k. rewrite Rmult_0_l, Rplus_0_r. apply Rle_trans with c; [apply Rmin_l|]. destruct O as [O|O].
    + rewrite Rabs_right; [|apply Rle_ge, Rmult_le_pos; lra]. replace c with (1 * c)%R at 1 by ring. apply Rmult_le_compat_r; lra.
    + rewrite Rabs_left1; [|assert (d * c <= 0 * c)%R by (apply Rmult_le_compat_r; lra); lra]. assert (d * c <= -1 * c)%R by (apply Rmult_le_compat_r; lra). lra.
  - apply Rle_trans with (b - w * c)%R; [apply Rmin_r|]. apply IZR_le in K. assert (1 * b <= IZR k * b)%R by (apply Rmult_le_compat_r; lra). rewrite Rabs_right by lra. lra.
  - apply Rle_trans with (b - w * c)%R; [apply Rmin_r|]. apply IZR_le in K. assert (IZR k * b <= -1 * b)%R by (apply Rmult_le_compat_r; lra). rewrite Rabs_left1 by lra. lra.
Qed.
Theorem mirrored m s s' x : n = sites lines -> nth_error l m = Some s -> nth_error l (n - 1 - m) = Some s' -> (vget (sh_pos s) x + vget (sh_pos s') x = vget box x)%R.
Proof.
  intros E H H'. destruct ok_facts as (_ & F & _ & _ & A). destruct (A _ _ H) as (P & _). destruct (A _ _ H') as (P' & _). specialize (P x). specialize (P' x). assert (Q : forall x, 0 < lines x) by (intros y; apply F).
  destruct (site_bound m s H) as (_ & B). rewrite E in P'. rewrite (row_opposite lines Q m x B) in P'. pose proof (row_bound lines Q m x B) as R1.
  replace (lines x - 1 - row lines m x) with (lines x - (1 + row lines m x)) in P' by lia. rewrite minus_INR, plus_INR in P' by lia. cbn [INR] in P'. lra.
Qed.
End Arranged.

(** *** The default lattice *)
Lemma ceil_cbrt_spec n : n <= ceil_cbrt n * ceil_cbrt n * ceil_cbrt n /\ forall k, n <= k * k * k -> ceil_cbrt n <= k.
Proof.
  unfold ceil_cbrt. destruct (List.find _ _) as [k|] eqn:E.
  - destruct (find_some _ _ E) as (I & T). apply Nat.leb_le in T. split; [exact T|]. intros j J. destruct (Nat.le_gt_cases k j) as [|G]; auto. exfalso.
    apply in_seq in I. assert (X : forall b s, List.find (fun k => Nat.leb n (k * k * k)) (seq s b) = Some k -> s <= j -> False).
    { induction b as [|b IH]; intros s F SJ; cbn in F; [discriminate|]. destruct (Nat.leb_spec n (s * s * s)) as [Y|Y]; [injection F as <-; lia|]. apply (IH (S s) F).
      destruct (Nat.eq_dec s j); [subst; lia|lia]. }
    apply (X _ _ E). lia.
  - exfalso. pose proof (find_none _ _ E n ltac:(apply in_seq; lia)) as F. cbn in F. apply Nat.leb_gt in F. nia.
Qed.
Theorem default_whole a n box l :
  arrange_default a n box = Some l <->
  0 < n /\ (forall x, 0 < vget box x)%R /\
  exists k, n <= k * k * k /\ (forall j, n <= j * j * j -> k <= j) /\ (polar a = Antiferro -> Nat.Even k) /\
    arranged a n (fun _ => k) (vmake (fun x => (vget box x / INR k)%R)) box l.
Proof.
  unfold arrange_default. destruct (ceil_cbrt_spec n) as (C1 & C2). split.
  - destruct (_ && _) eqn:C; [|discriminate]. rewrite andb_true_iff, all_axes_t, Nat.ltb_lt in C. destruct C as (A & B). intros E. apply arrange_whole in E. destruct E as (_ & _ & M & R1).
    split; [exact A|]. split; [intros x; apply rltb_t, B|]. exists (ceil_cbrt n). auto.
  - intros (A & B & k & K1 & K2 & K3 & R1). assert (k = ceil_cbrt n) by (apply Nat.le_antisymm; auto). subst k.
    assert (C : Nat.ltb 0 n && all_axes (fun x => Rltb 0 (vget box x)) = true) by (rewrite andb_true_iff, all_axes_t, Nat.ltb_lt; split; auto; intros x; apply rltb_t, B). rewrite C.
    apply arrange_whole. split; [exact A|]. split; [|split; [exact K3|exact R1]].
    assert (P : 0 < ceil_cbrt n) by (destruct (ceil_cbrt n); lia). apply lt_INR in P as PR. cbn [INR] in PR.
    intros x. specialize (B x). rewrite vget_make. split; [exact P|]. split; [apply Rdiv_lt_0_compat; lra|]. split; [exact B|].
    replace ((INR (ceil_cbrt n) - 1) * (vget box x / INR (ceil_cbrt n)))%R with (vget box x - vget box x / INR (ceil_cbrt n))%R by (field; lra).
    assert (0 < vget box x / INR (ceil_cbrt n))%R by (apply Rdiv_lt_0_compat; lra). lra.
Qed.
