From Coq Require Import ZArith Reals List Bool Arith Permutation Sorting.Sorted Lia.
From Verif Require Import OptModel TextModel TextProofs GeomModel BoxModel BoxSpec PbcModel PbcSpec LatticeModel LatticeSpec.
Import ListNotations.
Local Open Scope nat_scope.

Definition index (d c : idx3) : nat := ix c + iy c * ix d + iz c * ix d * iy d.
Lemma in_range_dec c d : {in_range c d} + {~ in_range c d}.
Proof. unfold in_range. destruct (lt_dec (ix c) (ix d)), (lt_dec (iy c) (iy d)), (lt_dec (iz c) (iz d)); (left; tauto) || (right; tauto). Defined.
Lemma getCellIndex_iff l c i : getCellIndex l c = Some i <-> in_range c (lat_dims l) /\ i = index (lat_dims l) c.
Proof.
  unfold getCellIndex, in_range, index. destruct (Nat.ltb_spec (ix c) (ix (lat_dims l))), (Nat.ltb_spec (iy c) (iy (lat_dims l))), (Nat.ltb_spec (iz c) (iz (lat_dims l))); cbn [andb];
    (split; [try discriminate; intros [= <-]; repeat split; auto|intros ((?&?&?)& ->); try lia; reflexivity]).
Qed.
Lemma index_bound d c : in_range c d -> index d c < ix d * iy d * iz d.
Proof.
  intros (X&Y&Z). unfold index. destruct c as [x y z], d as [a b e]; cbn in *.
  assert (x + y * a < a * b) by nia. nia.
Qed.
Lemma index_inj d c c' : in_range c d -> in_range c' d -> index d c = index d c' -> c = c'.
Proof.
  intros (X&Y&Z) (X'&Y'&Z') E. unfold index in E. destruct c as [x y z], c' as [x' y' z'], d as [a b e]; cbn in *.
  assert (B : x + y * a < a * b) by nia. assert (B' : x' + y' * a < a * b) by nia.
  assert (z = z') as <-.
  { destruct (lt_eq_lt_dec z z') as [[L|L]|L]; [|exact L|].
    - assert (z * a * b + a * b <= z' * a * b) by nia. nia.
    - assert (z' * a * b + a * b <= z * a * b) by nia. nia. }
  assert (E2 : x + y * a = x' + y' * a) by lia.
  assert (y = y') as <-.
  { destruct (lt_eq_lt_dec y y') as [[L|L]|L]; [|exact L|].
    - assert (y * a + a <= y' * a) by nia. lia.
    - assert (y' * a + a <= y * a) by nia. lia. }
  f_equal. lia.
Qed.
Lemma change_length i f l : length (change i f l) = length l.
Proof. revert i. induction l as [|x l IH]; intros [|i]; cbn; auto. Qed.
Lemma change_nth i f l j : nth_error (change i f l) j = if Nat.eqb i j then option_map f (nth_error l j) else nth_error l j.
Proof.
  revert i j. induction l as [|x l IH]; intros i j; [destruct i, j; cbn; try reflexivity; destruct (Nat.eqb i j); reflexivity|].
  destruct i, j; cbn; try reflexivity. apply IH.
Qed.

(** Invariant *)
Record valid (l : lattice) (b : box) (d : idx3) (k : idx3 -> list shape) : Prop := Valid {
  v_box : lat_box l = b;
  v_constructed : constructed b;
  v_dims : lat_dims l = d;
  v_positive : 0 < ix d /\ 0 < iy d /\ 0 < iz d;
  v_regular : lat_regular l = true -> exists ms, lat_cells l = [ms];
  v_irregular : lat_regular l = false -> length (lat_cells l) = ix d * iy d * iz d;
  v_cells : forall c, in_range c d -> getSpecificCell l c = Some (k c) }.
Lemma valid_front l b d k : valid l b d k -> exists front, nth_error (lat_cells l) 0 = Some front.
Proof.
  intros V. destruct (lat_regular l) eqn:R.
  - destruct (v_regular _ _ _ _ V R) as [ms ->]. exists ms. reflexivity.
  - pose proof (v_irregular _ _ _ _ V R) as L. destruct (v_positive _ _ _ _ V) as (X&Y&Z).
    destruct (lat_cells l) as [|m ms]; [cbn in L; nia|]. exists m. reflexivity.
Qed.
Lemma make_iff b ms d l : make_lattice b ms d = Some l <-> (0 < ix d /\ 0 < iy d /\ 0 < iz d) /\ l = Lattice b [ms] d true.
Proof.
  unfold make_lattice. destruct (Nat.ltb_spec 0 (ix d)), (Nat.ltb_spec 0 (iy d)), (Nat.ltb_spec 0 (iz d)); cbn [andb];
   (split; [try discriminate; intros [= <-]; auto|intros ((?&?&?)& ->); try lia; reflexivity]).
Qed.
Lemma make_valid b ms d l : constructed b -> make_lattice b ms d = Some l -> valid l b d (fun _ => ms).
Proof.
  intros C M. apply make_iff in M as [P ->]. constructor; cbn; auto; try discriminate. intros _. exists ms. reflexivity.
Qed.
Lemma modify_valid l b d k c f l' : valid l b d k -> modifySpecificCellMolecules l c f = Some l' ->
  in_range c d /\ lat_regular l' = false /\ valid l' b d (fun c' => if idx3_dec c' c then f (k c') else k c').
Proof.
  intros V M. unfold modifySpecificCellMolecules in M. destruct (valid_front _ _ _ _ V) as [front F]. rewrite F in M. cbn [OptModel.obind] in M.
  set (l1 := if lat_regular l then _ else l) in M.
  assert (V1 : valid l1 b d k /\ lat_regular l1 = false).
  { unfold l1. destruct (lat_regular l) eqn:R; [|split; [exact V|exact R]]. split; [|reflexivity].
    destruct (v_regular _ _ _ _ V R) as [ms E]. pose proof (v_positive _ _ _ _ V) as P. pose proof (v_dims _ _ _ _ V) as D.
    assert (N : numCells l = ix d * iy d * iz d) by (unfold numCells; rewrite D; reflexivity).
    rewrite E in F |- *. cbn in F. injection F as <-. cbn [length app]. rewrite N.
    assert (LE : length (ms :: repeat ms (ix d * iy d * iz d - 1)) = ix d * iy d * iz d) by (cbn [length]; rewrite repeat_length; destruct P as (?&?&?); nia).
    constructor; cbn [lat_box lat_dims lat_regular lat_cells]; [apply V|apply V|exact D|exact P|discriminate|intros _; exact LE|].
    intros c' I. unfold getSpecificCell. cbn [lat_regular].
    rewrite (proj2 (getCellIndex_iff _ c' (index d c'))) by (cbn [lat_dims]; rewrite D; auto). cbn [OptModel.obind lat_cells].
    pose proof (v_cells _ _ _ _ V c' I) as K. unfold getSpecificCell in K. rewrite R, E in K. cbn in K. injection K as <-.
    pose proof (index_bound d c' I) as B. destruct (index d c') as [|n]; [reflexivity|]. cbn [nth_error]. apply nth_error_repeat. lia. }
  destruct V1 as [V1 R1]. clearbody l1. clear F V l front. destruct (getCellIndex l1 c) as [i|] eqn:G; cbn [OptModel.obind] in M; [|discriminate].
  apply getCellIndex_iff in G as [I ->]. rewrite (v_dims _ _ _ _ V1) in *. injection M as <-. split; [exact I|]. split; [exact R1|].
  constructor; cbn [lat_box lat_dims lat_regular lat_cells]; [apply V1|apply V1|reflexivity|apply V1|rewrite R1; discriminate|intros _; rewrite change_length; apply (v_irregular _ _ _ _ V1 R1)|].
  intros c' I'. pose proof (v_cells _ _ _ _ V1 c' I') as K. unfold getSpecificCell in K |- *. cbn [lat_regular]. rewrite R1 in *.
  rewrite (proj2 (getCellIndex_iff _ c' (index d c'))) in K by (rewrite (v_dims _ _ _ _ V1); auto).
  rewrite (proj2 (getCellIndex_iff _ c' (index d c'))) by (cbn [lat_dims]; auto). cbn [OptModel.obind lat_cells] in *.
  rewrite change_nth, K. destruct (Nat.eqb_spec (index d c) (index d c')) as [E|E].
  - apply (index_inj d c c' I I') in E. subst c'. destruct (idx3_dec c c); [reflexivity|congruence].
  - destruct (idx3_dec c' c) as [->|]; [congruence|reflexivity].
Qed.
Lemma modify_succeeds l b d k c f : valid l b d k -> in_range c d -> modifySpecificCellMolecules l c f <> None.
Proof.
  intros V I. unfold modifySpecificCellMolecules. destruct (valid_front _ _ _ _ V) as [front F]. rewrite F. cbn [OptModel.obind].
  set (l1 := if lat_regular l then _ else l). assert (D : lat_dims l1 = d) by (unfold l1; destruct (lat_regular l); cbn; apply V).
  rewrite (proj2 (getCellIndex_iff l1 c (index d c))) by (rewrite D; auto). cbn [OptModel.obind]. discriminate.
Qed.
Lemma unit_valid l b d k f l' : valid l b d k -> modifyUnitCellMolecules l f = Some l' ->
  lat_regular l = true /\ lat_regular l' = true /\ valid l' b d (fun c => f (k c)).
Proof.
  intros V M. unfold modifyUnitCellMolecules in M. destruct (lat_regular l) eqn:R; [|discriminate]. injection M as <-. split; [reflexivity|]. split; [reflexivity|].
  destruct (v_regular _ _ _ _ V R) as [ms E]. rewrite E. constructor; cbn [lat_box lat_dims lat_regular lat_cells change]; try apply V; [intros _; eauto|discriminate|].
  intros c I. pose proof (v_cells _ _ _ _ V c I) as K. unfold getSpecificCell in *. rewrite R, E in K. cbn in K |- *. congruence.
Qed.
Lemma box_valid l b d k b' : valid l b d k -> constructed b' -> valid (modifyCellBox l b') b' d k.
Proof. intros V C. constructor; cbn; auto; try apply V. Qed.

(** Traversals *)
Lemma iget_iset c a n a' : iget (iset c a n) a' = match a, a' with AX, AX | AY, AY | AZ, AZ => n | _, _ => iget c a' end.
Proof. destruct a, a'; reflexivity. Qed.
Lemma sorted_app {A} (R : A -> A -> Prop) l l' : StronglySorted R l -> StronglySorted R l' -> (forall x y, In x l -> In y l' -> R x y) -> StronglySorted R (l ++ l').
Proof.
  intros S S' X. induction l as [|x l IH]; [exact S'|]. inversion S as [|? ? S1 F]; subst. cbn. constructor.
  - apply IH; [exact S1|]. intros a c I J. apply X; [right; exact I|exact J].
  - apply Forall_app. split; [exact F|]. apply Forall_forall. intros y I. apply X; [left; reflexivity|exact I].
Qed.
Lemma sorted_flat_seq {A} (R : A -> A -> Prop) (f : nat -> list A) n : forall s,
  (forall i, StronglySorted R (f i)) -> (forall i j x y, i < j -> In x (f i) -> In y (f j) -> R x y) -> StronglySorted R (flat_map f (seq s n)).
Proof.
  induction n as [|n IH]; intros s F X; cbn [seq flat_map]; [constructor|]. apply sorted_app; [apply F|apply IH; assumption|].
  intros x y I J. apply in_flat_map in J as (j&J&K). apply in_seq in J. apply (X s j); [lia|exact I|exact K].
Qed.
Definition different (a0 a1 a2 : axis) : Prop := a0 <> a1 /\ a0 <> a2 /\ a1 <> a2.
Lemma loop3_traversal a0 a1 a2 d : different a0 a1 a2 -> traversal a0 a1 a2 d (loop3 a0 a1 a2 d).
Proof.
  intros (D1&D2&D3). unfold loop3. split.
  - intros c. rewrite in_flat_map. split.
    + intros (i&I&H). apply in_flat_map in H as (j&J&H). apply in_map_iff in H as (k&<-&K). apply in_seq in I, J, K.
      unfold in_range. destruct a0, a1, a2; try congruence; cbn in *; lia.
    + intros (X&Y&Z). assert (S : forall a, In (iget c a) (seq 0 (iget d a))) by (intros []; apply in_seq; cbn; lia).
      exists (iget c a0). split; [apply S|]. apply in_flat_map. exists (iget c a1). split; [apply S|]. apply in_map_iff. exists (iget c a2). split; [|apply S].
      destruct c, a0, a1, a2; try congruence; reflexivity.
  - assert (G : forall i j k, let c := iset (iset (iset (I3 0 0 0) a0 i) a1 j) a2 k in iget c a0 = i /\ iget c a1 = j /\ iget c a2 = k).
    { intros i j k. destruct a0, a1, a2; try congruence; cbn; auto. }
    apply sorted_flat_seq.
    + intros i. apply sorted_flat_seq.
      * intros j. enough (Q : forall n s, StronglySorted (before a0 a1 a2) (map (fun k => iset (iset (iset (I3 0 0 0) a0 i) a1 j) a2 k) (seq s n))) by apply Q.
        intros n. induction n as [|n IH]; intros s; cbn [seq map]; [constructor|]. constructor; [apply IH|].
        apply Forall_forall. intros y I. apply in_map_iff in I as (k&<-&K). apply in_seq in K. unfold before.
        destruct (G i j s) as (G1&G2&G3). destruct (G i j k) as (H1&H2&H3). rewrite G1, G2, G3, H1, H2, H3. right. split; [reflexivity|]. right. split; [reflexivity|lia].
      * intros j j' x y L I J. apply in_map_iff in I as (k&<-&_). apply in_map_iff in J as (k'&<-&_). unfold before.
        destruct (G i j k) as (G1&G2&G3). destruct (G i j' k') as (H1&H2&H3). rewrite G1, G2, G3, H1, H2, H3. right. split; [reflexivity|]. left. exact L.
    + intros i i' x y L I J. apply in_flat_map in I as (j&_&I). apply in_map_iff in I as (k&<-&_).
      apply in_flat_map in J as (j'&_&J). apply in_map_iff in J as (k'&<-&_). unfold before.
      destruct (G i j k) as (G1&G2&G3). destruct (G i' j' k') as (H1&H2&H3). rewrite G1, G2, G3, H1, H2, H3. left. exact L.
Qed.
Lemma traversal_nodup a0 a1 a2 d cells : traversal a0 a1 a2 d cells -> NoDup cells.
Proof.
  intros [_ S]. induction S as [|c l S IH F]; constructor; [|exact IH]. intros I. rewrite Forall_forall in F. specialize (F c I). unfold before in F. lia.
Qed.
Lemma traversal_permutation a0 a1 a2 b0 b1 b2 d cells cells' : traversal a0 a1 a2 d cells -> traversal b0 b1 b2 d cells' -> Permutation cells cells'.
Proof.
  intros T T'. apply NoDup_Permutation; [eapply traversal_nodup; exact T|eapply traversal_nodup; exact T'|].
  intros c. rewrite (proj1 T c), (proj1 T' c). tauto.
Qed.
Lemma index_permutation a0 a1 a2 d cells : traversal a0 a1 a2 d cells -> Permutation (map (index d) cells) (seq 0 (ix d * iy d * iz d)).
Proof.
  intros T.
  assert (L : length cells = ix d * iy d * iz d).
  { assert (P : Permutation cells (loop3 AX AY AZ d)) by (eapply traversal_permutation; [exact T|apply loop3_traversal; repeat split; discriminate]).
    rewrite (Permutation_length P). unfold loop3. cbn [iget].
    assert (C : forall (A B : Type) (f : A -> list B) m l, (forall x, length (f x) = m) -> length (flat_map f l) = length l * m).
    { intros A B f m l E. induction l as [|x l IH]; [reflexivity|]. cbn. rewrite app_length, E, IH. reflexivity. }
    rewrite (C _ _ _ (iy d * iz d)); [rewrite seq_length; ring|]. intros i. rewrite (C _ _ _ (iz d)); [rewrite seq_length; ring|]. intros j. rewrite map_length. apply seq_length. }
  apply NoDup_Permutation_bis.
  - assert (N := traversal_nodup _ _ _ _ _ T). assert (R : forall c, In c cells -> in_range c d) by (intros c; apply (proj1 T)). clear T L.
    induction cells as [|c l IH]; [constructor|]. inversion N; subst. cbn. constructor; [|apply IH; [assumption|intros; apply R; right; assumption]].
    intros I. apply in_map_iff in I as (c'&E&I). apply index_inj in E; [subst c'; contradiction|apply R; right; exact I|apply R; left; reflexivity].
  - rewrite map_length, seq_length. lia.
  - intros i I. apply in_map_iff in I as (c&<-&I). apply in_seq. apply (proj1 T) in I. apply index_bound in I. lia.
Qed.

(** What is generated *)
Definition contents (b : box) (k : idx3 -> list shape) (cells : list idx3) : list shape := flat_map (fun c => map (placed b c) (k c)) cells.
Lemma place_placed b c s : place b c s = placed b c s.
Proof. reflexivity. Qed.
Lemma generate_valid l b d k : valid l b d k -> generateMolecules l = Some (contents b k (loop3 AX AY AZ d)).
Proof.
  intros V. unfold generateMolecules. rewrite (v_dims _ _ _ _ V).
  assert (R : forall c, In c (loop3 AX AY AZ d) -> in_range c d) by (intros c; apply loop3_traversal; repeat split; discriminate).
  assert (G : forall cells acc, (forall c, In c cells -> in_range c d) ->
    fold_left (fun r c => shapes <- r ;; (cell <- getSpecificCell l c ;; Some (shapes ++ map (place (lat_box l) c) cell))) cells (Some acc) = Some (acc ++ contents b k cells)).
  { induction cells as [|c cells IH]; intros acc I; cbn [fold_left contents flat_map]; [rewrite app_nil_r; reflexivity|].
    cbn [OptModel.obind]. rewrite (v_cells _ _ _ _ V) by (apply I; left; reflexivity). cbn [OptModel.obind]. rewrite IH by (intros; apply I; right; assumption).
    rewrite (v_box _ _ _ _ V), <- app_assoc. reflexivity. }
  rewrite G by exact R. reflexivity.
Qed.
Definition total (ns : list nat) : nat := fold_right Nat.add 0 ns.
Lemma total_permutation l l' : Permutation l l' -> total l = total l'.
Proof. intros P. unfold total. induction P; cbn [fold_right]; lia. Qed.
Lemma total_contents b k cells : length (contents b k cells) = total (map (fun c => length (k c)) cells).
Proof. induction cells as [|c cells IH]; [reflexivity|]. cbn [contents flat_map]. rewrite app_length, map_length. fold (contents b k cells). rewrite IH. reflexivity. Qed.
Lemma contents_permutation b k cells cells' : Permutation cells cells' -> Permutation (contents b k cells) (contents b k cells').
Proof. intros P. unfold contents. apply Permutation_flat_map, P. Qed.
Lemma size_valid l b d k : valid l b d k -> lattice_size l = Some (length (contents b k (loop3 AX AY AZ d))).
Proof.
  intros V. rewrite total_contents.
  assert (T : traversal AX AY AZ d (loop3 AX AY AZ d)) by (apply loop3_traversal; repeat split; discriminate).
  pose proof (index_permutation _ _ _ _ _ T) as P. unfold lattice_size. destruct (lat_regular l) eqn:R.
  - destruct (v_regular _ _ _ _ V R) as [ms E]. rewrite E. cbn [nth_error OptModel.obind]. f_equal.
    assert (K : forall c, In c (loop3 AX AY AZ d) -> length (k c) = length ms).
    { intros c I. apply (proj1 T) in I. pose proof (v_cells _ _ _ _ V c I) as G. unfold getSpecificCell in G. rewrite R, E in G. cbn in G. congruence. }
    rewrite (map_ext_in _ (fun _ => length ms) _ K). apply Permutation_length in P. rewrite map_length, seq_length in P.
    unfold numCells. rewrite (v_dims _ _ _ _ V), <- P. clear. unfold total. induction (loop3 AX AY AZ d) as [|c cs IH]; [reflexivity|]. cbn [length map fold_right Nat.mul]. lia.
  - f_equal. assert (F : forall cs n, fold_left (fun n cell => n + length cell) cs n = n + total (map (@length shape) cs)).
    { unfold total. induction cs as [|c cs IH]; intros n; cbn [fold_left map fold_right]; [lia|]. rewrite IH. lia. }
    rewrite F. cbn [Nat.add]. pose proof (v_irregular _ _ _ _ V R) as L.
    assert (E1 : map (@length shape) (lat_cells l) = map (fun i => length (nth i (lat_cells l) [])) (seq 0 (ix d * iy d * iz d))).
    { rewrite <- L. clear. induction (lat_cells l) as [|x cs IH]; [reflexivity|]. cbn [map length seq]. rewrite IH. f_equal. rewrite <- seq_shift, map_map. reflexivity. }
    rewrite E1. rewrite <- (total_permutation _ _ (Permutation_map (fun i => length (nth i (lat_cells l) [])) P)), map_map. f_equal. apply map_ext_in.
    intros c I. apply (proj1 T) in I. pose proof (v_cells _ _ _ _ V c I) as G. unfold getSpecificCell in G. rewrite R in G.
    rewrite (proj2 (getCellIndex_iff l c (index d c))) in G by (rewrite (v_dims _ _ _ _ V); auto). cbn [OptModel.obind] in G.
    rewrite (nth_error_nth _ _ _ G). reflexivity.
Qed.

(** Population *)
Lemma populate_cell_spec b c n cell : forall shapes, length shapes <= n ->
  populate_cell b c n cell shapes = (firstn n (shapes ++ map (placed b c) cell), Nat.ltb n (length shapes + length cell)).
Proof.
  induction cell as [|s cell IH]; intros shapes L; cbn [populate_cell map].
  - rewrite app_nil_r, firstn_all2 by exact L. f_equal. symmetry. apply Nat.ltb_ge. cbn [length]. lia.
  - destruct (Nat.eqb_spec (length shapes) n) as [E|E].
    + f_equal; [|cbn [length]; symmetry; apply Nat.ltb_lt; lia]. rewrite firstn_app, E, Nat.sub_diag, firstn_all2 by lia. cbn [firstn]. rewrite app_nil_r. reflexivity.
    + rewrite IH by (rewrite app_length; cbn; lia). rewrite <- app_assoc, app_length. cbn [app length]. rewrite place_placed. f_equal.
      destruct (Nat.ltb_spec n (length shapes + 1 + length cell)), (Nat.ltb_spec n (length shapes + S (length cell))); try reflexivity; lia.
Qed.
Lemma populate_cells_spec l b d k n cells : valid l b d k -> (forall c, In c cells -> in_range c d) -> forall shapes, length shapes <= n ->
  populate_cells l n cells shapes = Some (firstn n (shapes ++ contents b k cells)).
Proof.
  intros V. induction cells as [|c cells IH]; intros I shapes L; cbn [populate_cells contents flat_map].
  - rewrite app_nil_r, firstn_all2 by exact L. reflexivity.
  - rewrite (v_cells _ _ _ _ V) by (apply I; left; reflexivity). cbn [OptModel.obind]. rewrite (v_box _ _ _ _ V), populate_cell_spec by exact L. cbn [fst snd].
    fold (contents b k cells). destruct (Nat.ltb_spec n (length shapes + length (k c))) as [H|H].
    + f_equal. rewrite app_assoc. symmetry. rewrite firstn_app. replace (n - length (shapes ++ map (placed b c) (k c))) with 0 by (rewrite app_length, map_length; lia).
      cbn. apply app_nil_r.
    + rewrite firstn_all2 by (rewrite app_length, map_length; lia). rewrite IH; [rewrite <- app_assoc; reflexivity|intros; apply I; right; assumption|].
      rewrite app_length, map_length. lia.
Qed.
Lemma parse_order s a0 a1 a2 : parseAxisOrder s = Some (a0, a1, a2) <-> different a0 a1 a2 /\ s = [axis_letter a0; axis_letter a1; axis_letter a2].
Proof.
  split.
  - unfold parseAxisOrder. intros H.
    repeat (match type of H with context [text_eqb s ?t] => let E := fresh in destruct (text_eqb s t) eqn:E; [apply text_eqb_eq in E; injection H as <- <- <-; split; [repeat split; discriminate|exact E]|clear E] end).
    discriminate.
  - intros [(D1&D2&D3) ->]. destruct a0, a1, a2; try congruence; reflexivity.
Qed.
Lemma serial_valid l b d k a0 a1 a2 n : valid l b d k -> different a0 a1 a2 ->
  exists cells size, traversal a0 a1 a2 d cells /\ lattice_size l = Some size /\
    serial_populate [axis_letter a0; axis_letter a1; axis_letter a2] l n = if Nat.leb n size then Some (firstn n (contents b k cells)) else None.
Proof.
  intros V D. exists (loop3 a0 a1 a2 d), (length (contents b k (loop3 AX AY AZ d))). pose proof (loop3_traversal a0 a1 a2 d D) as T.
  split; [exact T|]. split; [apply size_valid, V|]. unfold serial_populate. rewrite (proj2 (parse_order _ a0 a1 a2) (conj D eq_refl)). cbn [OptModel.obind].
  rewrite (size_valid _ _ _ _ V). cbn [OptModel.obind]. destruct (Nat.leb n _); [|reflexivity].
  rewrite (v_dims _ _ _ _ V), (populate_cells_spec l b d k n _ V); [reflexivity|apply (proj1 T)|cbn; lia].
Qed.
Lemma insert_permutation n l : Permutation (insert_nat n l) (n :: l).
Proof.
  induction l as [|m l IH]; cbn; [reflexivity|]. destruct (Nat.leb n m); [reflexivity|]. rewrite IH. apply perm_swap.
Qed.
Lemma insert_sorted n l : StronglySorted le l -> StronglySorted le (insert_nat n l).
Proof.
  intros S. induction S as [|m l S IH F]; cbn; [repeat constructor|]. destruct (Nat.leb_spec n m) as [L|L].
  - constructor; [constructor; assumption|]. constructor; [exact L|]. eapply Forall_impl; [|exact F]. cbn. intros; lia.
  - constructor; [exact IH|]. apply Forall_forall. intros x I. apply (Permutation_in _ (insert_permutation n l)) in I as [<-|I]; [lia|]. rewrite Forall_forall in F. auto.
Qed.
Lemma sort_permutation l : Permutation (sort_nat l) l.
Proof. induction l as [|n l IH]; [reflexivity|]. cbn. rewrite insert_permutation. constructor. exact IH. Qed.
Lemma sort_sorted l : StronglySorted le (sort_nat l).
Proof. induction l as [|n l IH]; [constructor|]. apply insert_sorted, IH. Qed.
Lemma select_subsequence shapes : forall is' base, StronglySorted lt is' -> (forall i, In i is' -> base <= i < base + length shapes) ->
  exists r, select_all shapes (map (fun i => i - base) is') = Some r /\ length r = length is' /\ subsequence r shapes.
Proof.
  induction shapes as [|s shapes IH]; intros is' base S R.
  - destruct is' as [|i is']; [exists []; repeat constructor|]. specialize (R i (or_introl eq_refl)). cbn in R. lia.
  - assert (Shift : forall js, (forall i, In i js -> base < i) -> select_all (s :: shapes) (map (fun i => i - base) js) = select_all shapes (map (fun i => i - Datatypes.S base) js)).
    { induction js as [|j js IHj]; intros B; [reflexivity|]. cbn [map select_all]. rewrite IHj by (intros; apply B; right; assumption).
      specialize (B j (or_introl eq_refl)). replace (j - base) with (Datatypes.S (j - Datatypes.S base)) by lia. reflexivity. }
    destruct is' as [|i is'].
    + exists []. split; [reflexivity|]. split; [reflexivity|]. clear. induction (s :: shapes); constructor. assumption.
    + inversion S as [|? ? S1 F]; subst. rewrite Forall_forall in F. destruct (Nat.eq_dec i base) as [->|N].
      * destruct (IH is' (Datatypes.S base) S1) as (r&E&L&U).
        { intros j J. specialize (F j J). specialize (R j (or_intror J)). cbn in R. lia. }
        exists (s :: r). cbn [map select_all]. rewrite Nat.sub_diag. cbn [nth_error OptModel.obind]. rewrite Shift by (intros j J; apply F, J). rewrite E. cbn.
        split; [reflexivity|]. split; [lia|]. apply sub_take. exact U.
      * destruct (IH (i :: is') (Datatypes.S base) S) as (r&E&L&U).
        { intros j J. pose proof (R j J) as RJ. cbn in RJ. pose proof (R i (or_introl eq_refl)) as R0. destruct J as [<-|J]; [lia|]. specialize (F j J). lia. }
        exists r. rewrite Shift; [split; [exact E|split; [exact L|apply sub_skip; exact U]]|].
        intros j [<-|J]; [specialize (R i (or_introl eq_refl)); lia|]. specialize (F j J). specialize (R i (or_introl eq_refl)). lia.
Qed.
Lemma random_valid l b d k shuffled size n : valid l b d k -> lattice_size l = Some size -> Permutation shuffled (seq 0 size) -> n <= size ->
  exists molecules shapes, generateMolecules l = Some molecules /\ random_populate shuffled l n = Some shapes /\ length shapes = n /\ subsequence shapes molecules.
Proof.
  intros V Z P L. rewrite (size_valid _ _ _ _ V) in Z. injection Z as Z. rewrite (generate_valid _ _ _ _ V).
  set (ms := contents b k (loop3 AX AY AZ d)) in *. unfold random_populate. rewrite (size_valid _ _ _ _ V). fold ms. cbn [OptModel.obind].
  rewrite Z, (proj2 (Nat.leb_le _ _) L), (generate_valid _ _ _ _ V). fold ms. cbn [OptModel.obind].
  assert (LE : length shuffled = size) by (rewrite (Permutation_length P); apply seq_length).
  assert (ND : NoDup (firstn n shuffled)).
  { assert (N : NoDup shuffled) by (eapply Permutation_NoDup; [symmetry; exact P|apply seq_NoDup]). rewrite <- (firstn_skipn n shuffled) in N. clear - N.
    induction (firstn n shuffled); [constructor|]. inversion N; subst. constructor; [|auto]. intros I. apply H1, in_app_iff. left; exact I. }
  assert (SS : StronglySorted lt (sort_nat (firstn n shuffled))).
  { pose proof (sort_sorted (firstn n shuffled)) as S. assert (N : NoDup (sort_nat (firstn n shuffled))) by (eapply Permutation_NoDup; [symmetry; apply sort_permutation|exact ND]).
    induction S as [|x r S IH F]; constructor; [apply IH; inversion N; assumption|]. inversion N; subst. rewrite Forall_forall in F |- *. intros y I. specialize (F y I).
    assert (x <> y) by congruence. lia. }
  destruct (select_subsequence ms (sort_nat (firstn n shuffled)) 0 SS) as (r&E&LR&U).
  { intros i I. apply (Permutation_in _ (sort_permutation _)) in I.
    assert (J : In i shuffled) by (rewrite <- (firstn_skipn n shuffled); apply in_app_iff; left; exact I).
    apply (Permutation_in _ P), in_seq in J. lia. }
  exists ms, r. split; [reflexivity|]. rewrite (map_ext _ (fun i => i)) in E by (intros; lia). rewrite map_id in E. split; [exact E|]. split; [|exact U].
  rewrite LR, (Permutation_length (sort_permutation _)), firstn_length. lia.
Qed.
