(** Cell numbering, reflected cells and offsets of the neighbour grid. *)
From Coq Require Import Reals ZArith List Bool Lia Lra Permutation ZifyBool ZifyNat.
From Verif Require Import GeomModel GeomProofs BoxModel BoxSpec BoxProofs RFloorModel RFloorProofs PbcModel PbcSpec
  PbcProofs NGModel NGSpec NGListProofs.
Import ListNotations.
Open Scope Z_scope.

Lemma cvec_ext a b : cx a = cx b -> cy a = cy b -> cz a = cz b -> a = b.
Proof. destruct a, b; simpl; intros; subst; reflexivity. Qed.

(** ** Numbering *)
Definition in_div (div e : cvec) : Prop := 0 <= cx e < cx div /\ 0 <= cy e < cy div /\ 0 <= cz e < cz div.

Lemma coords_roundtrip div e : in_div div e -> cellNoToCoordinates div (coordinatesToCellNo div e) = e.
Proof.
  intros (Hx & Hy & Hz). unfold cellNoToCoordinates, coordinatesToCellNo.
  assert (E1 : (cx div * (cy div * (cz div * 0 + cz e) + cy e) + cx e) / cx div = cy div * cz e + cy e).
  { symmetry. apply Z.div_unique_pos with (cx e); [lia|]. ring. }
  assert (E2 : (cy div * cz e + cy e) / cy div = cz e).
  { symmetry. apply Z.div_unique_pos with (cy e); [lia|]. ring. }
  rewrite E1, E2. apply cvec_ext; simpl.
  - symmetry. apply Z.mod_unique_pos with (cy div * cz e + cy e); [lia|]. ring.
  - symmetry. apply Z.mod_unique_pos with (cz e); [lia|]. ring.
  - apply Z.mod_small. lia.
Qed.

Lemma cellNo_range div e : in_div div e -> 0 <= coordinatesToCellNo div e < cx div * cy div * cz div.
Proof.
  intros (Hx & Hy & Hz). unfold coordinatesToCellNo.
  assert (cy div * cz e + cy e <= cy div * cz div - 1) by nia.
  assert (0 <= cy div * cz e + cy e) by nia.
  replace (cz div * 0 + cz e) with (cz e) by ring.
  split; [nia|].
  replace (cx div * cy div * cz div) with (cx div * (cy div * cz div)) by ring. nia.
Qed.

Lemma cellNo_inj div e e' : in_div div e -> in_div div e' -> coordinatesToCellNo div e = coordinatesToCellNo div e' ->
  e = e'.
Proof. intros H H' E. rewrite <- (coords_roundtrip div e H), E. apply coords_roundtrip, H'. Qed.

Definition div_of (n : axis -> Z) : cvec := C3 (n AX + 2) (n AY + 2) (n AZ + 2).
Definition up1 (c : cvec) : cvec := C3 (cx c + 1) (cy c + 1) (cz c + 1).

Lemma real_cell_no_coords n c : real_cell_no n c = coordinatesToCellNo (div_of n) (up1 c).
Proof. unfold real_cell_no, coordinatesToCellNo, div_of, up1; simpl. ring. Qed.
Lemma realCoordinates_no n c : realCoordinatesToCellNo (div_of n) c = real_cell_no n c.
Proof. unfold real_cell_no, realCoordinatesToCellNo, div_of; simpl. ring. Qed.

Definition npos (n : axis -> Z) : Prop := forall a, 1 <= n a.

Lemma in_range_div n c : in_range n c -> in_div (div_of n) (up1 c).
Proof. unfold in_range, in_div, div_of, up1; simpl; lia. Qed.
Lemma in_range_cube_div n c d : in_range n c -> in_cube d -> in_div (div_of n) (up1 (cadd c d)).
Proof. unfold in_range, in_cube, in_div, div_of, up1, cadd; simpl; lia. Qed.
Lemma real_cell_no_range n c : in_range n c -> 0 <= real_cell_no n c < total_cells n.
Proof.
  intros H. rewrite real_cell_no_coords. pose proof (cellNo_range _ _ (in_range_div _ _ H)). unfold total_cells. simpl in *. lia.
Qed.
Lemma real_cell_no_inj n c c' : in_range n c -> in_range n c' -> real_cell_no n c = real_cell_no n c' -> c = c'.
Proof.
  intros H H' E. rewrite !real_cell_no_coords in E. apply cellNo_inj in E; auto using in_range_div.
  apply (f_equal cx) in E as E1. apply (f_equal cy) in E as E2. apply (f_equal cz) in E as E3. simpl in *.
  apply cvec_ext; lia.
Qed.

Lemma wrap_in_range n c : npos n -> in_range n (wrap_coord n c).
Proof.
  intros H. pose proof (H AX). pose proof (H AY). pose proof (H AZ). unfold in_range, wrap_coord; simpl.
  repeat split; apply Z.mod_pos_bound; lia.
Qed.

(** Wrapping and image number determine the coordinates. *)
Lemma wrap_image n c : npos n ->
  c = cadd (wrap_coord n c) (C3 (n AX * cx (image_no n c)) (n AY * cy (image_no n c)) (n AZ * cz (image_no n c))).
Proof.
  intros H. pose proof (H AX). pose proof (H AY). pose proof (H AZ). unfold wrap_coord, image_no, cadd; simpl.
  apply cvec_ext; simpl.
  - pose proof (Z.div_mod (cx c) (n AX)). lia.
  - pose proof (Z.div_mod (cy c) (n AY)). lia.
  - pose proof (Z.div_mod (cz c) (n AZ)). lia.
Qed.
Lemma wrap_image_inj n c c' : npos n -> wrap_coord n c = wrap_coord n c' -> image_no n c = image_no n c' -> c = c'.
Proof. intros H E1 E2. rewrite (wrap_image n c H), (wrap_image n c' H), E1, E2. reflexivity. Qed.

(** ** Reflection *)
Lemma reflect_axis_spec n e : 1 <= n -> 0 <= e < n + 2 ->
  reflect_axis (n + 2) e = ((e - 1) mod n + 1, (e - 1) / n + 1).
Proof.
  intros Hn He. unfold reflect_axis.
  destruct (Z.eqb_spec e 0) as [->|].
  - replace ((0 - 1) mod n) with (n - 1); [|apply (Z.mod_unique_pos (0-1) n (-1)); lia].
    replace ((0 - 1) / n) with (-1); [|apply (Z.div_unique_pos (0-1) n (-1) (n-1)); lia].
    f_equal; lia.
  - destruct (Z.eqb_spec e (n + 2 - 1)) as [->|].
    + replace ((n + 2 - 1 - 1) mod n) with 0; [|apply (Z.mod_unique_pos (n+2-1-1) n 1); lia].
      replace ((n + 2 - 1 - 1) / n) with 1; [|apply (Z.div_unique_pos (n+2-1-1) n 1 0); lia].
      f_equal; lia.
    + rewrite Z.mod_small, Z.div_small by lia. f_equal; lia.
Qed.

Lemma reflected_data n e : npos n -> in_div (div_of n) (up1 e) ->
  getReflectedCellData (div_of n) (coordinatesToCellNo (div_of n) (up1 e)) =
  (real_cell_no n (wrap_coord n e),
   flattenTranslationIndex (cx (image_no n e) + 1) (cy (image_no n e) + 1) (cz (image_no n e) + 1)).
Proof.
  intros Hn Hd. pose proof (Hn AX). pose proof (Hn AY). pose proof (Hn AZ).
  unfold getReflectedCellData, isCellReflected. rewrite coords_roundtrip by auto.
  destruct Hd as (Hx & Hy & Hz). unfold div_of, up1 in Hx, Hy, Hz; simpl in Hx, Hy, Hz.
  match goal with |- context [negb ?t] => destruct t eqn:Er end; cbn [negb].
  - unfold div_of at 1 2 3, up1 at 1 2 3; simpl.
    rewrite !reflect_axis_spec by lia. rewrite real_cell_no_coords.
    unfold wrap_coord, image_no, up1; simpl.
    replace (cx e + 1 - 1) with (cx e) by ring. replace (cy e + 1 - 1) with (cy e) by ring.
    replace (cz e + 1 - 1) with (cz e) by ring. reflexivity.
  - unfold div_of, up1 in Er; simpl in Er.
    assert (0 <= cx e < n AX /\ 0 <= cy e < n AY /\ 0 <= cz e < n AZ) as (Rx & Ry & Rz) by lia.
    assert (Ew : wrap_coord n e = e).
    { apply cvec_ext; simpl; apply Z.mod_small; lia. }
    rewrite Ew, real_cell_no_coords. unfold image_no; simpl.
    rewrite !Z.div_small by lia. reflexivity.
Qed.

(** ** Translations *)
Lemma translations_get b i j k : -1 <= i <= 1 -> -1 <= j <= 1 -> -1 <= k <= 1 ->
  zget (calculateTranslations b) (flattenTranslationIndex (i+1) (j+1) (k+1)) = Some (lattice_vector b i j k).
Proof.
  intros Hi Hj Hk.
  assert (i = -1 \/ i = 0 \/ i = 1) as Di by lia. assert (j = -1 \/ j = 0 \/ j = 1) as Dj by lia.
  assert (k = -1 \/ k = 0 \/ k = 1) as Dk by lia.
  destruct Di as [->|[->| ->]]; destruct Dj as [->|[->| ->]]; destruct Dk as [->|[->| ->]];
    unfold calculateTranslations, zget, flattenTranslationIndex; simpl; f_equal;
    rewrite <- r2a_lattice; f_equal; apply vec_ext; simpl; lra.
Qed.

(** ** Offsets *)
Definition offset (div d : cvec) : Z := cx d + cx div * (cy d + cy div * cz d).

Lemma cellNo_offset n c d :
  coordinatesToCellNo (div_of n) (up1 (cadd c d)) = real_cell_no n c + offset (div_of n) d.
Proof. unfold coordinatesToCellNo, real_cell_no, offset, div_of, up1, cadd; simpl. ring. Qed.

Definition nb_cube : list cvec :=
  flat_map (fun z => flat_map (fun y => map (fun x => C3 x y z) [0; 1; 2]) [0; 1; 2]) [0; 1; 2].
Definition down1 (c : cvec) : cvec := C3 (cx c - 1) (cy c - 1) (cz c - 1).

Definition full_dirs : list cvec := map down1 nb_cube.
Definition half_dirs : list cvec := map down1 (filter is_positive_neighbour nb_cube).

Lemma in_full_dirs d : In d full_dirs <-> in_cube d.
Proof.
  split.
  - intros H. assert (F : Forall in_cube full_dirs).
    { unfold full_dirs, nb_cube, down1, in_cube; simpl. repeat constructor; simpl; lia. }
    rewrite Forall_forall in F. auto.
  - destruct d as [x y z]. intros (Hx & Hy & Hz). simpl in *.
    assert (x = -1 \/ x = 0 \/ x = 1) as D1 by lia. assert (y = -1 \/ y = 0 \/ y = 1) as D2 by lia.
    assert (z = -1 \/ z = 0 \/ z = 1) as D3 by lia.
    destruct D1 as [->|[->| ->]]; destruct D2 as [->|[->| ->]]; destruct D3 as [->|[->| ->]];
      unfold full_dirs, nb_cube, down1; simpl; tauto.
Qed.
Definition cvec_eq_dec (a b : cvec) : {a = b} + {a <> b}.
Proof. decide equality; apply Z.eq_dec. Defined.

Fixpoint nodupb (l : list cvec) : bool :=
  match l with [] => true | x :: l' => negb (existsb (fun y => if cvec_eq_dec x y then true else false) l') && nodupb l' end.
Lemma nodupb_NoDup l : nodupb l = true -> NoDup l.
Proof.
  induction l as [|x l IH]; simpl; [constructor|]. intros H. apply andb_prop in H. destruct H as [H1 H2].
  constructor; auto. intros Hin. apply negb_true_iff in H1.
  assert (existsb (fun y => if cvec_eq_dec x y then true else false) l = true); [|congruence].
  apply existsb_exists. exists x. split; auto. destruct (cvec_eq_dec x x); congruence.
Qed.
Lemma NoDup_full_dirs : NoDup full_dirs.
Proof. apply nodupb_NoDup. vm_compute. reflexivity. Qed.
Lemma NoDup_half_dirs : NoDup half_dirs.
Proof. apply nodupb_NoDup. vm_compute. reflexivity. Qed.
Lemma full_dirs_full : full_cube full_dirs.
Proof. split; [apply NoDup_full_dirs|apply in_full_dirs]. Qed.
Lemma half_dirs_half : half_cube half_dirs.
Proof.
  split; [apply NoDup_half_dirs|]. split; [|split].
  - intros d H. apply in_full_dirs. unfold half_dirs, full_dirs in *. apply in_map_iff in H.
    destruct H as (x & <- & Hx). apply in_map. apply filter_In in Hx. tauto.
  - assert (H : existsb (fun y => if cvec_eq_dec (C3 0 0 0) y then true else false) half_dirs = false) by (vm_compute; reflexivity).
    intros Hin. assert (E : existsb (fun y => if cvec_eq_dec (C3 0 0 0) y then true else false) half_dirs = true); [|congruence].
    apply existsb_exists. eexists; split; [exact Hin|]. destruct cvec_eq_dec; congruence.
  - intros d Hd Hne.
    assert (F : Forall (fun d => d <> C3 0 0 0 -> (In d half_dirs <-> ~ In (copp d) half_dirs)) full_dirs).
    { assert (B : forallb (fun d => (if cvec_eq_dec d (C3 0 0 0) then true else
          Bool.eqb (existsb (fun y => if cvec_eq_dec d y then true else false) half_dirs)
                   (negb (existsb (fun y => if cvec_eq_dec (copp d) y then true else false) half_dirs)))) full_dirs = true)
        by (vm_compute; reflexivity).
      apply Forall_forall. intros x Hx Hx0. rewrite forallb_forall in B. specialize (B x Hx). cbv beta in B.
      destruct (cvec_eq_dec x (C3 0 0 0)); [congruence|]. apply eqb_prop in B.
      assert (Hex : forall z, In z half_dirs <-> existsb (fun y => if cvec_eq_dec z y then true else false) half_dirs = true).
      { intros z. rewrite existsb_exists. split.
        - intros Hz. exists z. split; auto. destruct cvec_eq_dec; congruence.
        - intros (y & Hy & E). destruct (cvec_eq_dec z y); [subst; auto|discriminate]. }
      rewrite (Hex x), (Hex (copp x)), B.
      destruct (existsb (fun y => if cvec_eq_dec (copp x) y then true else false) half_dirs); cbn [negb]; intuition congruence. }
    rewrite Forall_forall in F. apply F; auto. apply in_full_dirs, Hd.
Qed.

(** The do-while loop visits all 27 neighbours. *)
Fixpoint enum (fuel : nat) (nb : cvec) : option (list cvec) :=
  match fuel with
  | O => None
  | S f => match increment nb with
           | (nb', true) => option_map (cons nb) (enum f nb')
           | (_, false) => Some [nb]
           end
  end.
Definition in_nb (nb : cvec) : Prop := 0 <= cx nb <= 2 /\ 0 <= cy nb <= 2 /\ 0 <= cz nb <= 2.
Lemma increment_in nb nb' : in_nb nb -> increment nb = (nb', true) -> in_nb nb'.
Proof.
  unfold in_nb, increment. intros H.
  destruct (2 <? cx nb + 1) eqn:E1; [destruct (2 <? cy nb + 1) eqn:E2|]; intros E; injection E as <- E; simpl; lia.
Qed.
Lemma offsets_loop_enum div test tno F : forall fuel nb, in_nb nb ->
  (forall nb, in_nb nb -> cellNeighbourToCellNo div test nb = Some (F nb)) ->
  offsets_loop fuel div test tno nb = option_map (map (fun nb => (nb, wrap64 (F nb - tno)))) (enum fuel nb).
Proof.
  induction fuel as [|f IH]; intros nb Hnb HF; simpl; auto.
  rewrite HF by auto. destruct (increment nb) as [nb' [|]] eqn:E; simpl; auto.
  rewrite IH; auto; [|eapply increment_in; eauto]. destruct (enum f nb'); reflexivity.
Qed.
Lemma enum_all : enum 27 (C3 0 0 0) = Some nb_cube.
Proof. vm_compute. reflexivity. Qed.

Lemma cellNeighbour_ok div test nb : (forall a, 1 <= cget test a /\ cget test a + 2 <= cget div a) -> in_nb nb ->
  cellNeighbourToCellNo div test nb = Some (coordinatesToCellNo div test + offset div (down1 nb)).
Proof.
  intros H (Hx & Hy & Hz). pose proof (H AX) as H1. pose proof (H AY) as H2. pose proof (H AZ) as H3.
  unfold cellNeighbourToCellNo. simpl in *.
  match goal with |- (if ?t then _ else _) = _ => destruct t eqn:E end; [|lia].
  f_equal. unfold coordinatesToCellNo, offset, down1; simpl. ring.
Qed.

(** Sorting. *)
Lemma insert_perm x l : Permutation (insert_sorted x l) (x :: l).
Proof.
  induction l as [|y l IH]; simpl; auto. destruct (x <=? y); auto.
  rewrite IH. apply perm_swap.
Qed.
Lemma sort_perm l : Permutation (sort l) l.
Proof. induction l as [|x l IH]; simpl; auto. rewrite insert_perm, IH. reflexivity. Qed.
Lemma unique_NoDup l : NoDup l -> unique l = l.
Proof.
  induction l as [|x l IH]; intros H; simpl; auto. inversion H; subst.
  destruct l as [|y l]; auto. destruct (Z.eqb_spec x y); [subst; exfalso; simpl in *; tauto|]. f_equal; auto.
Qed.
Lemma unique_sort_perm l : NoDup l -> Permutation (unique (sort l)) l.
Proof.
  intros H. rewrite unique_NoDup; [apply sort_perm|].
  eapply Permutation_NoDup; [apply Permutation_sym, sort_perm|auto].
Qed.

Lemma wrap64_eq_small a b : Z.abs (a - b) < 2 ^ 64 -> wrap64 a = wrap64 b -> a = b.
Proof.
  unfold wrap64. intros H E. set (M := 2 ^ 64) in *. assert (0 < M) by (unfold M; lia).
  pose proof (Z.div_mod a M). pose proof (Z.div_mod b M).
  assert (a / M = b / M) by nia. nia.
Qed.

Lemma offset_bound n d : npos n -> in_cube d -> 3 * Z.abs (offset (div_of n) d) * 3 <= 13 * ((n AX + 2) * (n AY + 2)).
Proof.
  intros Hn (Hx & Hy & Hz). pose proof (Hn AX). pose proof (Hn AY). pose proof (Hn AZ).
  unfold offset, div_of; cbn [cx cy cz]. set (p := n AX + 2) in *. set (q := n AY + 2) in *. assert (3 <= p) by lia. assert (3 <= q) by lia.
  assert (p * q >= 3 * p) by nia. assert (p * q >= 3 * q) by nia. assert (9 <= p * q) by nia.
  assert (Z.abs (cx d + p * (cy d + q * cz d)) <= 1 + p + p * q).
  { replace (p * (cy d + q * cz d)) with (p * cy d + p * q * cz d) by ring.
    assert (Z.abs (p * cy d) <= p) by nia. assert (Z.abs (p * q * cz d) <= p * q) by nia. lia. }
  set (t := Z.abs (cx d + p * (cy d + q * cz d))) in *. set (pq := p * q) in *. lia.
Qed.

Lemma offset_inj n d d' : npos n -> in_cube d -> in_cube d' ->
  offset (div_of n) d = offset (div_of n) d' -> d = d'.
Proof.
  intros Hn Hd Hd' E.
  pose proof (Hn AX). pose proof (Hn AY). pose proof (Hn AZ).
  assert (R : in_range n (C3 0 0 0)) by (unfold in_range; simpl; lia).
  assert (E2 : coordinatesToCellNo (div_of n) (up1 (cadd (C3 0 0 0) d)) =
               coordinatesToCellNo (div_of n) (up1 (cadd (C3 0 0 0) d'))).
  { rewrite !cellNo_offset, E. reflexivity. }
  apply cellNo_inj in E2; auto using in_range_cube_div.
  apply (f_equal cx) in E2 as E3. apply (f_equal cy) in E2 as E4. apply (f_equal cz) in E2 as E5. simpl in *.
  apply cvec_ext; lia.
Qed.

Lemma wrapped_offset_inj n d d' : npos n -> total_cells n < 2 ^ 64 -> in_cube d -> in_cube d' ->
  wrap64 (offset (div_of n) d) = wrap64 (offset (div_of n) d') -> d = d'.
Proof.
  intros Hn Ht Hd Hd' E. apply (offset_inj n); auto. apply wrap64_eq_small in E; auto.
  pose proof (offset_bound n d Hn Hd). pose proof (offset_bound n d' Hn Hd').
  pose proof (Hn AX). pose proof (Hn AY). pose proof (Hn AZ). unfold total_cells in Ht.
  set (p := (n AX + 2) * (n AY + 2)) in *.
  assert (9 <= p) by (unfold p; nia). assert (3 * p <= p * (n AZ + 2)) by nia. lia.
Qed.

Lemma NoDup_map_inj_on {A B} (f : A -> B) l : NoDup l -> (forall x y, In x l -> In y l -> f x = f y -> x = y) -> NoDup (map f l).
Proof.
  induction l as [|x l IH]; simpl; intros Hn Hi; [constructor|]. inversion Hn; subst. constructor.
  - intros H. apply in_map_iff in H. destruct H as (y & E & Hy). rewrite (Hi y x) in Hy; auto.
  - apply IH; auto.
Qed.

Lemma map_map_filter_fst {A B} (f : A -> bool) (g : A -> B) l :
  map snd (filter (fun p => f (fst p)) (map (fun x => (x, g x)) l)) = map g (filter f l).
Proof. induction l as [|x l IH]; simpl; auto. destruct (f x); simpl; f_equal; auto. Qed.

Lemma offsets_spec n : npos n -> total_cells n < 2 ^ 64 ->
  exists offs pos, fillNeighbouringCellsOffsets (div_of n) = Some (offs, pos) /\
    Permutation offs (map (fun d => wrap64 (offset (div_of n) d)) full_dirs) /\
    Permutation pos (map (fun d => wrap64 (offset (div_of n) d)) half_dirs).
Proof.
  intros Hn Ht. unfold fillNeighbouringCellsOffsets.
  set (test := C3 _ _ _). set (tno := coordinatesToCellNo (div_of n) test).
  rewrite (offsets_loop_enum _ _ _ (fun nb => tno + offset (div_of n) (down1 nb))).
  - rewrite enum_all. cbn [option_map].
    eexists _, _. split; [reflexivity|]. rewrite map_map_filter_fst, map_map. cbn [snd].
    assert (E : forall nb, wrap64 (tno + offset (div_of n) (down1 nb) - tno) = wrap64 (offset (div_of n) (down1 nb)))
      by (intros; f_equal; ring).
    rewrite !(map_ext _ _ E).
    assert (Einj : forall x y, In x full_dirs -> In y full_dirs ->
      wrap64 (offset (div_of n) x) = wrap64 (offset (div_of n) y) -> x = y).
    { intros x y Hx Hy. apply in_full_dirs in Hx, Hy. apply wrapped_offset_inj; auto. }
    assert (E1 : map (fun x => wrap64 (offset (div_of n) (down1 x))) nb_cube =
                 map (fun d => wrap64 (offset (div_of n) d)) full_dirs) by (unfold full_dirs; rewrite map_map; reflexivity).
    assert (E2 : map (fun x => wrap64 (offset (div_of n) (down1 x))) (filter is_positive_neighbour nb_cube) =
                 map (fun d => wrap64 (offset (div_of n) d)) half_dirs) by (unfold half_dirs; rewrite map_map; reflexivity).
    rewrite E1, E2. split; apply unique_sort_perm, NoDup_map_inj_on.
    + apply NoDup_full_dirs.
    + auto.
    + apply NoDup_half_dirs.
    + intros x y Hx Hy. apply Einj; apply in_full_dirs; apply half_dirs_half; auto.
  - unfold in_nb; simpl; lia.
  - intros nb Hnb. apply cellNeighbour_ok; auto. intros a. pose proof (Hn a).
    assert (Hd : forall z, 3 <= z -> 1 <= z / 2 /\ z / 2 + 2 <= z).
    { intros z Hz. pose proof (Z.div_mod z 2). pose proof (Z.mod_pos_bound z 2). lia. }
    destruct a; simpl; apply Hd; lia.
Qed.
