From Coq Require Import ZArith Reals List Bool Arith Permutation Sorting.Sorted Lra Lia.
From Verif Require Import TextModel GeomModel GeomProofs BoxModel BoxSpec BoxProofs PbcModel PbcSpec RFloorModel LatticeModel LatticeSpec LatticeProofs LatticeNormProofs PackModel RotModel RotSpec OptModel TransModel TransSpec TransProofs.
Import ListNotations.
Local Open Scope nat_scope.

Definition changes (f : shape -> nat -> option shape) (pairs : list (nat * nat)) (r : option (list shape)) : option (list shape) :=
  fold_left (fun r jm => c <- r ;; change_at (fst jm) (fun s => f s (snd jm)) c) pairs r.
Definition layer_pairs (layers : list (R * list nat)) : list (nat * nat) :=
  flat_map (fun p => map (fun j => (j, fst p)) (snd (snd p))) (combine (seq 0 (length layers)) layers).
Lemma fold_none {A B} (f : A -> B -> option A) l : fold_left (fun r x => c <- r ;; f c x) l None = None.
Proof. induction l as [|x l IH]; [reflexivity|exact IH]. Qed.
Lemma transform_changes req f layers cell : transform_layers req f layers cell = changes (fun s m => f s (m mod req)) (layer_pairs layers) (Some cell).
Proof.
  unfold transform_layers, layer_pairs. generalize (Some cell). induction (combine (seq 0 (length layers)) layers) as [|p ps IH]; intros r; [reflexivity|].
  cbn [fold_left flat_map]. rewrite IH. unfold changes. rewrite fold_left_app. f_equal. destruct r as [c|]; cbn [obind].
  - generalize (Some c). induction (snd (snd p)) as [|j js IHj]; intros r; [reflexivity|]. cbn [map fold_left fst snd]. apply IHj.
  - symmetry. apply fold_none.
Qed.
Lemma changes_spec f (g : shape -> nat -> shape) (h : nat -> nat) cell : (forall s m, f s m = Some (g s m)) ->
  forall todo done c, NoDup (map fst (done ++ todo)) -> (forall j m, In (j, m) todo -> j < length cell /\ m = h j) ->
  (forall j, nth_error c j = if in_dec Nat.eq_dec j (map fst done) then option_map (fun s => g s (h j)) (nth_error cell j) else nth_error cell j) ->
  exists c', changes f todo (Some c) = Some c' /\
    forall j, nth_error c' j = if in_dec Nat.eq_dec j (map fst (done ++ todo)) then option_map (fun s => g s (h j)) (nth_error cell j) else nth_error cell j.
Proof.
  intros F. induction todo as [|[j m] todo IH]; intros done c D H C.
  - exists c. split; [reflexivity|]. rewrite app_nil_r. exact C.
  - destruct (H j m (or_introl eq_refl)) as [J ->].
    assert (NJ : ~ In j (map fst done)).
    { intros X. rewrite map_app in D. cbn [map fst] in D. apply (NoDup_remove_2 _ _ _ D), in_or_app. left; exact X. }
    destruct (nth_error cell j) as [s|] eqn:E; [|apply nth_error_None in E; lia].
    assert (E' : nth_error c j = Some s) by (rewrite C; destruct (in_dec Nat.eq_dec j (map fst done)); [contradiction|exact E]).
    destruct (change_at_spec (fun s => f s (h j)) j c s (g s (h j)) E' (F s (h j))) as (c1&E1&N1).
    unfold changes. cbn [fold_left fst snd obind]. rewrite E1. fold (changes f todo (Some c1)).
    replace (done ++ (j, h j) :: todo) with ((done ++ [(j, h j)]) ++ todo) in * by (rewrite <- app_assoc; reflexivity).
    apply IH; [exact D|intros i m I; apply H; right; exact I|].
    intros i. rewrite N1. rewrite map_app. cbn [map fst]. destruct (Nat.eqb_spec i j) as [->|NE].
    + destruct (in_dec Nat.eq_dec j (map fst done ++ [j])) as [_|X]; [rewrite E; reflexivity|]. exfalso. apply X, in_or_app. right; left; reflexivity.
    + rewrite C. destruct (in_dec Nat.eq_dec i (map fst done)) as [I|I], (in_dec Nat.eq_dec i (map fst done ++ [j])) as [I'|I']; try reflexivity; exfalso.
      * apply I', in_or_app. left; exact I.
      * apply in_app_or in I' as [X|[X|[]]]; [contradiction|congruence].
Qed.
Lemma in_layer_pairs layers j m : In (j, m) (layer_pairs layers) <-> exists z is', nth_error layers m = Some (z, is') /\ In j is'.
Proof.
  unfold layer_pairs. rewrite in_flat_map. split.
  - intros ([q [z is']]&I&J). apply combine_seq_in in I as [_ I]. rewrite Nat.sub_0_r in I. cbn [fst snd] in J. apply in_map_iff in J as (i&E&J). injection E as -> ->. exists z, is'. auto.
  - intros (z&is'&I&J). exists (m, (z, is')). split; [apply combine_seq_in; rewrite Nat.sub_0_r; split; [lia|exact I]|]. cbn [fst snd]. apply in_map_iff. exists j. auto.
Qed.

Section Cell.
Variables (a : axis) (cell : list shape) (zs : list R) (layers : list (R * list nat)) (factor : nat).
Hypothesis nonempty : cell <> [].
Hypothesis sorted : layer_coordinates a cell zs.
Hypothesis assoc : layers_of a cell zs layers.
Notation n := (length cell).
Notation L := (length zs).
Definition default : shape := Shape vzero mid.
Definition number (m : nat) : nat := (m / n) * L + layers_below zs (coord a (nth (m mod n) cell default)).
Lemma n_pos : 0 < n. Proof. destruct cell; [congruence|cbn; lia]. Qed.
Lemma L_length : length layers = L. Proof. destruct assoc as [<- _]. symmetry. apply map_length. Qed.
Lemma L_pos : 0 < L.
Proof.
  destruct cell as [|s r] eqn:E; [congruence|]. destruct sorted as [_ Z]. pose proof (proj2 (Z (coord a s)) (ex_intro _ s (conj (or_introl eq_refl) eq_refl))) as I. destruct zs; [destruct I|cbn; lia].
Qed.
Lemma replicated_layer m z is' : nth_error (replicate_layers factor n layers) m = Some (z, is') -> m < factor * L /\
  exists z0 is0, nth_error layers (m mod L) = Some (z0, is0) /\ is' = map (fun j => j + (m / L) * n) is0.
Proof.
  unfold replicate_layers. rewrite nth_replicas by (rewrite L_length; exact L_pos). rewrite L_length.
  destruct (Nat.ltb_spec m (factor * L)) as [M|M]; [|discriminate]. destruct (nth_error layers (m mod L)) as [[z0 is0]|]; [|discriminate]. cbn. intros E. injection E as _ <-.
  split; [exact M|]. exists z0, is0. split; reflexivity.
Qed.
Lemma replicated_member m z is' j : nth_error (replicate_layers factor n layers) m = Some (z, is') -> In j is' -> j < factor * n /\ m = number j.
Proof.
  intros E I. destruct (replicated_layer m z is' E) as (M&z0&is0&E0&->). apply in_map_iff in I as (i&<-&I). destruct assoc as [_ A]. destruct (A _ _ _ E0) as (Z&_&B).
  apply B in I as (s&S&C). assert (NI : i < n) by (apply nth_error_Some; congruence). assert (LP := L_pos).
  assert (Q : m / L < factor) by (apply Nat.div_lt_upper_bound; lia). split; [nia|].
  unfold number. rewrite Nat.div_add, Nat.mod_add, (Nat.div_small i), (Nat.mod_small i) by lia. rewrite (nth_error_nth _ _ _ S), C, (below_nth zs (m mod L) z0 (proj1 sorted) Z).
  cbn [plus]. rewrite (Nat.mul_comm (m / L)). apply Nat.div_mod. lia.
Qed.
Lemma pairs_nodup : NoDup (map fst (layer_pairs (replicate_layers factor n layers))).
Proof.
  assert (E : map fst (layer_pairs (replicate_layers factor n layers)) =
    flat_map (fun p => snd (snd p)) (combine (seq 0 (length (replicate_layers factor n layers))) (replicate_layers factor n layers))).
  { unfold layer_pairs. induction (combine (seq 0 (length (replicate_layers factor n layers))) (replicate_layers factor n layers)) as [|p ps IH]; [reflexivity|].
    cbn [flat_map]. rewrite map_app, map_map, IH. f_equal. apply map_id. }
  rewrite E. apply nodup_flat_map.
  - apply (NoDup_map_inv fst). rewrite combine_seq_fst. apply seq_NoDup.
  - intros [m [z is']] I. apply combine_seq_in in I as [_ I]. rewrite Nat.sub_0_r in I. destruct (replicated_layer _ _ _ I) as (_&z0&is0&E0&->). cbn [snd].
    destruct assoc as [_ A]. destruct (A _ _ _ E0) as (_&D&_). clear -D. induction D as [|x l N D IH]; [constructor|]. cbn. constructor; [|exact IH]. intros I. apply in_map_iff in I as (y&E&I). assert (x = y) as -> by lia. contradiction.
  - intros [m [z is']] [m' [z' is'']] j I I' J J'. apply combine_seq_in in I as [_ I], I' as [_ I']. rewrite Nat.sub_0_r in I, I'. cbn [snd] in J, J'.
    destruct (replicated_member _ _ _ _ I J) as [_ M], (replicated_member _ _ _ _ I' J') as [_ M']. rewrite M, M' in *. congruence.
Qed.
Lemma all_indices j : j < factor * n -> In j (map fst (layer_pairs (replicate_layers factor n layers))).
Proof.
  intros J. pose proof n_pos as NP. pose proof L_pos as LP. destruct (nth_error cell (j mod n)) as [s|] eqn:S; [|apply nth_error_None in S; pose proof (Nat.mod_upper_bound j n); lia].
  assert (I : In (coord a s) zs) by (apply (proj2 sorted); exists s; split; [eapply nth_error_In, S|reflexivity]). apply In_nth_error in I as [q Q].
  assert (QL : q < L) by (apply nth_error_Some; congruence).
  destruct assoc as [ZL A]. assert (X : exists is0, nth_error layers q = Some (coord a s, is0)).
  { rewrite <- ZL, nth_error_map in Q. destruct (nth_error layers q) as [[z is0]|]; [|discriminate]. cbn in Q. injection Q as ->. exists is0. reflexivity. }
  destruct X as [is0 X]. destruct (A _ _ _ X) as (_&_&B). apply in_map_iff. exists (j, (j / n) * L + q). split; [reflexivity|]. apply in_layer_pairs.
  exists ((coord a s + INR (j / n) + INR factor)%R), (map (fun i => i + (j / n) * n) is0). split.
  - unfold replicate_layers. assert (K : j / n < factor) by (apply Nat.div_lt_upper_bound; lia). rewrite nth_replicas by (rewrite L_length; exact LP). rewrite L_length.
    destruct (Nat.ltb_spec (j / n * L + q) (factor * L)) as [_|Y]; [|nia]. replace (j / n * L + q) with (q + j / n * L) by lia.
    rewrite Nat.div_add, Nat.mod_add, (Nat.div_small q), (Nat.mod_small q) by lia. rewrite X. reflexivity.
  - apply in_map_iff. exists (j mod n). split; [|apply B; exists s; auto]. pose proof (Nat.div_mod j n). lia.
Qed.
(** What becomes of the cell *)
Lemma transformed_cell req f (g : shape -> nat -> shape) : (forall s m, f s (m mod req) = Some (g s m)) ->
  transform_layers req f (replicate_layers factor n layers) (replicate_cell factor a cell) =
  Some (flat_map (fun i => map (fun s => g (Shape (vput (sh_pos s) a ((vget (sh_pos s) a + INR i) / INR factor)%R) (sh_rot s)) (i * L + layers_below zs (coord a s))) cell) (seq 0 factor)).
Proof.
  intros F. rewrite transform_changes. pose proof n_pos as NP.
  destruct (changes_spec (fun s m => f s (m mod req)) g number (replicate_cell factor a cell) F (layer_pairs (replicate_layers factor n layers)) [] (replicate_cell factor a cell)) as (c'&E&N).
  - exact pairs_nodup.
  - intros j m I. apply in_layer_pairs in I as (z&is'&I&J). unfold replicate_cell. rewrite length_replicas. eapply replicated_member; eassumption.
  - intros j. reflexivity.
  - rewrite E. f_equal. apply nth_ext. intros j. rewrite N. cbn [app]. unfold replicate_cell. rewrite !nth_replicas by exact NP.
    destruct (Nat.ltb_spec j (factor * n)) as [J|J].
    + destruct (in_dec _ _ _) as [_|X]; [|exfalso; apply X, all_indices, J]. destruct (nth_error cell (j mod n)) as [s|] eqn:S; [|reflexivity]. cbn [option_map].
      unfold number. rewrite (nth_error_nth _ _ _ S). reflexivity.
    + destruct (in_dec _ _ _); reflexivity.
Qed.
End Cell.

(** *** Cells merged along the axis *)
Definition merged (a : axis) (factor : nat) (c : idx3) (i : nat) : idx3 := iset c a (iget c a * factor + i).
Lemma merged_permutation a factor d : 0 < factor -> Permutation (flat_map (fun c => map (merged a factor c) (seq 0 factor)) (grid (iset d a (iget d a)))) (grid (iset d a (iget d a * factor))).
Proof.
  intros F. apply NoDup_Permutation; [|apply grid_nodup|].
  - apply nodup_flat_map; [apply grid_nodup| |].
    + intros c _. apply FinFun.Injective_map_NoDup; [|apply seq_NoDup]. intros i j E. unfold merged in E. apply (f_equal (fun c => iget c a)) in E. destruct a; cbn in E; lia.
    + intros c c' x _ _ I I'. apply in_map_iff in I as (i&<-&I), I' as (j&E&J). apply in_seq in I, J. unfold merged in E.
      assert (X : iget c' a = iget c a).
      { apply (f_equal (fun c => iget c a)) in E. assert (iget c' a * factor + j = iget c a * factor + i) by (destruct a; cbn in E |- *; lia). nia. }
      destruct a, c as [x y z], c' as [x' y' z']; cbn in *; injection E; intros; subst; f_equal; lia.
  - intros x. rewrite in_flat_map, grid_in. split.
    + intros (c&C&I). apply grid_in in C. apply in_map_iff in I as (i&<-&I). apply in_seq in I. unfold merged, in_range in *. destruct a, c as [x y z], d as [p q r]; cbn in *; repeat split; try tauto; nia.
    + intros X. exists (iset x a (iget x a / factor)). split.
      * apply grid_in. unfold in_range in *. destruct a, x as [x y z], d as [p q r]; cbn in *; repeat split; try tauto; apply Nat.div_lt_upper_bound; lia.
      * apply in_map_iff. exists (iget x a mod factor). split; [|apply in_seq; pose proof (Nat.mod_upper_bound (iget x a) factor); lia].
        unfold merged. assert (Y : forall y, y / factor * factor + y mod factor = y) by (intros y; pose proof (Nat.div_mod y factor); lia).
        destruct a, x as [x y z]; cbn; rewrite Y; reflexivity.
Qed.
Lemma flat_map_flat_map {A B C} (f : B -> list C) (g : A -> list B) l : flat_map f (flat_map g l) = flat_map (fun x => flat_map f (g x)) l.
Proof. induction l as [|x l IH]; [reflexivity|]. cbn. rewrite flat_map_app, IH. reflexivity. Qed.
Lemma flat_map_map {A B C} (f : B -> list C) (g : A -> B) l : flat_map f (map g l) = flat_map (fun x => f (g x)) l.
Proof. induction l as [|x l IH]; [reflexivity|]. cbn. rewrite IH. reflexivity. Qed.
Lemma map_flat_map {A B C} (f : B -> C) (g : A -> list B) l : map f (flat_map g l) = flat_map (fun x => map f (g x)) l.
Proof. induction l as [|x l IH]; [reflexivity|]. cbn. rewrite map_app, IH. reflexivity. Qed.
Lemma perm_flat_map {A B} (f : A -> list B) l l' : Permutation l l' -> Permutation (flat_map f l) (flat_map f l').
Proof.
  induction 1 as [|x l l' P IH|x y l|l l' l'' P IH P' IH']; cbn.
  - constructor.
  - apply Permutation_app_head, IH.
  - rewrite !app_assoc. apply Permutation_app_tail, Permutation_app_comm.
  - etransitivity; eassumption.
Qed.

Lemma scaled_box_props b a factor : constructed b -> 0 < factor -> exists b', scaled_box b a factor = Some b' /\ constructed b' /\
  forall a', box_side b' a' = if axis_eqb a' a then vscale (INR factor) (box_side b a') else box_side b a'.
Proof.
  intros C F. assert (P : (0 < INR factor)%R) by (apply lt_0_INR, F). set (f := V3 (if axis_eqb AX a then INR factor else 1) (if axis_eqb AY a then INR factor else 1) (if axis_eqb AZ a then INR factor else 1)).
  assert (PX : (0 < vx f)%R) by (subst f; clear - P; destruct a; cbn; lra). assert (PY : (0 < vy f)%R) by (subst f; clear - P; destruct a; cbn; lra). assert (PZ : (0 < vz f)%R) by (subst f; clear - P; destruct a; cbn; lra).
  destruct (scale_sides_props b f C PX PY PZ) as (b'&E&C'&_&S&_). exists b'.
  assert (U : forall a' (B : bool), vscale (if B then INR factor else 1) (box_side b a') = if B then vscale (INR factor) (box_side b a') else box_side b a').
  { intros a' [|]; [reflexivity|]. apply vec_ext; cbn; ring. }
  split; [|split; [exact C'|]].
  - unfold scaled_box. rewrite <- !U. exact E.
  - intros a'. rewrite S, <- U. destruct a'; reflexivity.
Qed.
Lemma merged_placed b b' a factor c i s : 0 < factor -> (forall a', box_side b' a' = if axis_eqb a' a then vscale (INR factor) (box_side b a') else box_side b a') ->
  forall r, placed b' c (Shape (vput (sh_pos s) a ((vget (sh_pos s) a + INR i) / INR factor)%R) r) = Shape (sh_pos (placed b (merged a factor c i) s)) r.
Proof.
  intros F S r. assert (P : (INR factor <> 0)%R) by (apply not_0_INR; lia). unfold placed. cbn [sh_pos sh_rot]. f_equal.
  pose proof (S AX) as SX. pose proof (S AY) as SY. pose proof (S AZ) as SZ. rewrite !side_col in SX, SY, SZ. unfold relativeToAbsolute.
  destruct (dims b) as [a0 a1 a2 a3 a4 a5 a6 a7 a8], (dims b') as [c0 c1 c2 c3 c4 c5 c6 c7 c8], (sh_pos s) as [x y z], c as [p q t].
  destruct a; cbn in SX, SY, SZ; unfold vscale, mcol, vmake in SX, SY, SZ; cbn in SX, SY, SZ; injection SX as -> -> ->; injection SY as -> -> ->; injection SZ as -> -> ->;
    unfold merged, vput, vmake; cbn [axis_eqb vget vx vy vz iget iset ix iy iz]; rewrite plus_INR, mult_INR; apply vec_ext; cbn; field; exact P.
Qed.

Section Whole.
Variables (req : nat) (f : shape -> nat -> option shape) (M : nat -> mat) (a : axis).
Hypothesis req_pos : 0 < req.
Hypothesis turns : forall s m, m < req -> f s m = Some (turned (M m) s).
Lemma layerwise_refused l : layerwise_transform req f a l <> None -> lat_regular l = true /\ isNormalized l = true /\ nth_error (lat_cells l) 0 <> Some [].
Proof.
  unfold layerwise_transform. destruct (lat_regular l) eqn:R; [|intros X; exfalso; apply X; reflexivity]. destruct (isNormalized l); [|intros X; exfalso; apply X; reflexivity].
  cbn [negb]. intros X. split; [reflexivity|]. split; [reflexivity|]. intros E. apply X. unfold getSpecificCell. rewrite R, E. cbn [obind]. unfold recalculateUnitCell. rewrite LCM_correct. reflexivity.
Qed.
Lemma layerwise_spec l b d k zs : built l b d k -> lat_regular l = true -> (forall c s, in_range c d -> In s (k c) -> in_unit s) ->
  let cell := k (I3 0 0 0) in cell <> [] -> distinct_layers a cell -> layer_coordinates a cell zs ->
  let factor := Nat.lcm (length zs) req / length zs in
  if Nat.eqb (iget d a mod factor) 0 then
    exists l' b' d' k' lb molecules' cells, layerwise_transform req f a l = Some l' /\ built l' b' d' k' /\ lat_regular l' = true /\
      (forall c s, in_range c d' -> In s (k' c) -> in_unit s) /\ getLatticeBox l = Some lb /\ getLatticeBox l' = Some lb /\
      traversal AX AY AZ d cells /\ generateMolecules l' = Some molecules' /\
      Permutation (flat_map (fun c => map (fun s => turned (M (layer_number a zs c s mod req)) (placed b c s)) (k c)) cells) molecules'
  else layerwise_transform req f a l = None.
Proof.
  intros B R U cell NE D Z factor. pose proof (built_valid _ _ _ _ B) as V. destruct (v_positive _ _ _ _ V) as (PX&PY&PZ). pose proof (v_constructed _ _ _ _ V) as C.
  assert (I0 : in_range (I3 0 0 0) d) by (repeat split; assumption).
  pose proof (v_cells _ _ _ _ V _ I0) as G0. fold cell in G0.
  assert (K : forall c, in_range c d -> k c = cell).
  { intros c I. pose proof (v_cells _ _ _ _ V c I) as G. unfold getSpecificCell in G, G0. rewrite R in G, G0. congruence. }
  assert (N : isNormalized l = true) by (apply (normalized_iff _ _ _ _ V); exact U).
  pose proof (layers_correct a cell zs D Z) as A. set (layers := getLayerAssociation cell a) in *.
  assert (LL : length layers = length zs) by (eapply L_length; eassumption). assert (LP : 0 < length zs) by (eapply L_pos; eassumption).
  assert (LCMZ : Nat.lcm (length zs) req <> 0) by (intros X; apply Nat.lcm_eq_0 in X; lia).
  destruct (Nat.divide_lcm_l (length zs) req) as [w W]. assert (FW : factor = w) by (unfold factor; rewrite W; apply Nat.div_mul; lia).
  assert (FP : 0 < factor) by (rewrite FW; destruct w; [cbn in W; lia|lia]).
  assert (FR : (factor * length zs) mod req = 0). { rewrite FW, <- W. apply Nat.mod_divide; [lia|apply Nat.divide_lcm_r]. }
  unfold layerwise_transform. rewrite R, N. cbn [negb]. rewrite G0. cbn [obind]. unfold recalculateUnitCell. fold layers. rewrite LCM_correct, LL.
  destruct (Nat.ltb_spec 0 (length zs)) as [_|]; [|lia]. destruct (Nat.ltb_spec 0 req) as [_|]; [|lia]. cbn [andb obind]. fold factor.
  rewrite (v_dims _ _ _ _ V), (v_box _ _ _ _ V). destruct (Nat.eqb_spec (iget d a mod factor) 0) as [E|E]; [|reflexivity].
  destruct (scaled_box_props b a factor C FP) as (b'&EB&C'&S). rewrite EB. cbn [obind].
  assert (LR : length (replicate_layers factor (length cell) layers) = factor * length zs) by (unfold replicate_layers; rewrite length_replicas, LL; reflexivity).
  rewrite LR, FR. cbn [Nat.eqb].
  rewrite (transformed_cell a cell zs layers factor NE Z A req f (fun s m => turned (M (m mod req)) s)).
  2:{ intros s m. apply turns, Nat.mod_upper_bound. lia. }
  cbn [obind]. set (cell' := flat_map _ _).
  apply Nat.mod_divide in E; [|lia]. destruct E as [q Q]. assert (QD : iget d a / factor = q) by (rewrite Q; apply Nat.div_mul; lia). rewrite QD.
  assert (QP : 0 < q) by (assert (0 < iget d a) by (destruct a; assumption); destruct q; [cbn in Q; lia|lia]).
  set (d' := iset d a q).
  assert (ML : make_lattice b' cell' d' = Some (Lattice b' [cell'] d' true)) by (apply make_iff; split; [subst d'; destruct a; cbn; auto|reflexivity]).
  pose proof (make_valid _ _ _ _ C' ML) as V'. destruct (lattice_box_valid _ _ _ _ V) as (lb&LB&CL&SL).
  exists (Lattice b' [cell'] d' true), b', d', (fun _ => cell'), lb, (contents b' (fun _ => cell') (grid d')), (grid d).
  split; [exact ML|]. split; [apply built_new; assumption|]. split; [reflexivity|]. split; [|split; [exact LB|split; [|split; [apply loop3_traversal; repeat split; discriminate|split; [apply generate_valid, V'|]]]]].
  - intros c s _ I a'. subst cell'. apply in_flat_map in I as (i&I&J). apply in_seq in I. apply in_map_iff in J as (s0&<-&J). unfold turned. cbn [sh_pos].
    pose proof (U (I3 0 0 0) s0 I0 J) as US. assert (P : (0 < INR factor)%R) by (apply lt_0_INR, FP). assert (IL : (INR i + 1 <= INR factor)%R) by (rewrite <- S_INR; apply le_INR; lia). pose proof (pos_INR i).
    unfold vput. pose proof (US a) as UA. pose proof (US a') as UA'.
    assert (X : (0 <= (vget (sh_pos s0) a + INR i) / INR factor < 1)%R).
    { split; [apply Rmult_le_pos; [lra|left; apply Rinv_0_lt_compat, P]|]. apply (Rmult_lt_reg_r (INR factor)); [exact P|]. unfold Rdiv. rewrite Rmult_assoc, Rinv_l, Rmult_1_r by lra. lra. }
    destruct a, a'; cbn in *; assumption.
  - unfold getLatticeBox in LB |- *. rewrite (v_dims _ _ _ _ V), (v_box _ _ _ _ V) in LB. cbn [lat_box lat_dims]. rewrite <- LB. rewrite !S. subst d'.
    assert (T : forall v, vscale (INR q) (vscale (INR factor) v) = vscale (INR (iget d a)) v) by (intros v; rewrite Q, mult_INR; apply vec_ext; cbn; ring).
    destruct a; cbn [axis_eqb iset ix iy iz iget] in *; rewrite T; reflexivity.
  - assert (GD : grid d = grid (iset d' a (iget d' a * factor))).
    { f_equal. subst d'. destruct a, d as [x y z]; cbn in *; rewrite Q; reflexivity. }
    assert (GD' : grid d' = grid (iset d' a (iget d' a))) by (subst d'; destruct a; reflexivity).
    symmetry. unfold contents. rewrite GD'.
    transitivity (flat_map (fun c => map (fun s => turned (M (layer_number a zs c s mod req)) (placed b c s)) cell) (flat_map (fun c => map (merged a factor c) (seq 0 factor)) (grid (iset d' a (iget d' a))))).
    + rewrite flat_map_flat_map. match goal with |- Permutation ?x ?y => replace y with x; [reflexivity|] end.
      apply flat_map_ext. intros c. unfold cell'. rewrite map_flat_map, flat_map_map. apply flat_map_ext. intros i. rewrite map_map. apply map_ext. intros s.
      unfold turned. cbn [sh_pos sh_rot]. rewrite (merged_placed b b' a factor c i s FP S). f_equal.
      assert (Y : (i * length zs + layers_below zs (coord a s)) mod req = layer_number a zs (merged a factor c i) s mod req); [|rewrite Y; reflexivity].
      unfold layer_number. fold (coord a s). assert (IG : iget (merged a factor c i) a = iget c a * factor + i) by (unfold merged; destruct a; reflexivity). rewrite IG.
      apply Nat.mod_divide in FR; [|lia]. destruct FR as [t T]. replace ((iget c a * factor + i) * length zs + layers_below zs (coord a s)) with ((i * length zs + layers_below zs (coord a s)) + (iget c a * t) * req) by nia.
      symmetry. apply Nat.mod_add. lia.
    + rewrite (perm_flat_map _ _ _ (merged_permutation a factor d' FP)). rewrite <- GD.
      match goal with |- Permutation ?x ?y => replace y with x; [reflexivity|] end. rewrite !flat_map_concat_map. f_equal. apply map_ext_in. intros c I. apply grid_in in I. rewrite (K c I). reflexivity.
Qed.
End Whole.
