(** Counts and energies of a packing in terms of the particles alone. *)
From Coq Require Import Reals ZArith List Bool Lia Lra Permutation.
From Verif Require Import GeomModel BoxModel BoxSpec RFloorModel PbcModel PbcSpec PbcTotalModel NGModel NGSpec GeomProofs BoxProofs RFloorProofs PbcProofs NGListProofs NGGeomProofs NGProofs.
From Verif Require Import PackModel PackSpec PackSumProofs NGPairProofs PackGridProofs PackCountProofs PackTotalProofs PackProofs PackInvProofs.
Import ListNotations.
Open Scope nat_scope.

Lemma lattice_add b s t : is_lattice_vector b s -> is_lattice_vector b t -> is_lattice_vector b (vadd s t).
Proof.
  intros (i & j & k & ->) (i' & j' & k' & ->). exists (i + i')%Z, (j + j')%Z, (k + k')%Z. unfold lattice_vector.
  rewrite !plus_IZR. apply vec_ext; simpl; ring.
Qed.
Lemma lattice_0 b : is_lattice_vector b vzero.
Proof. exists 0%Z, 0%Z, 0%Z. unfold lattice_vector. apply vec_ext; simpl; ring. Qed.

Lemma nth_error_map_nth {A B} (f : A -> B) l i x d : nth_error l i = Some x -> nth i (map f l) d = f x.
Proof. intros H. apply nth_error_nth. rewrite nth_error_map, H. auto. Qed.

Section Contacts.
Variables (inter : interaction).
Notation inv := (inv inter).

Lemma sites_no_of pk : inv pk -> sites_no inter = dims_of pk.
Proof.
  intros Hi. rewrite (i_k _ _ Hi). unfold sites_no, site_vectors, sites_of. destruct (in_centres inter); reflexivity.
Qed.
(** The kept position of a site is the true one moved by a lattice vector. *)
Definition site_at (pk : packing) (a : nat) : vec :=
  site_position inter (nth (a / dims_of pk) (shapes_of pk) no_shape) (a mod dims_of pk).
Lemma srot_shape pk a : inv pk -> a < sites_total pk -> srot pk a = sh_rot (nth (a / dims_of pk) (shapes_of pk) no_shape).
Proof.
  intros Hi Ha. destruct (spos_nth pk a (inv_pgood inter pk Hi) Ha) as (p & Hp & _ & ->).
  unfold shapes_of. rewrite (nth_error_map_nth pt_shape _ _ p); auto.
Qed.
Lemma spos_site pk a : inv pk -> a < sites_total pk ->
  is_lattice_vector (pk_box pk) (vsub (spos pk a) (site_at pk a)).
Proof.
  intros Hi Ha. destruct (spos_nth pk a (inv_pgood inter pk Hi) Ha) as (p & Hp & Hs & _).
  unfold site_at, shapes_of. rewrite (nth_error_map_nth pt_shape _ _ p) by auto.
  destruct (inv_part inter pk _ p Hi Hp) as (H1 & H2 & H3). pose proof (i_k _ _ Hi) as Hk.
  unfold sitepos in Hs. unfold site_position, site_vectors. destruct (Nat.eqb_spec (pk_k pk) 0) as [E|E].
  - rewrite (sites_of_0 _ E) in *. change (a mod 1) with 0 in *. simpl in Hs. injection Hs as <-.
    destruct (in_centres inter); [|simpl in Hk; lia]. simpl nth.
    replace (vsub _ _) with vzero; [apply lattice_0|]. unfold pt_pos. apply vec_ext; unfold mvec, vzero, vsub, vadd; simpl; ring.
  - rewrite (sites_of_S _ E) in *. rewrite H3, H2 in Hs. unfold absolute_centres in Hs. rewrite map_map, nth_error_map in Hs.
    destruct (nth_error (in_centres inter) (a mod pk_k pk)) as [c|] eqn:Ec; [|discriminate]. simpl in Hs. injection Hs as <-.
    replace (nth (a mod pk_k pk) _ vzero) with c.
    2: { destruct (in_centres inter); [destruct (a mod pk_k pk); discriminate|]. symmetry. apply nth_error_nth. auto. }
    pose proof (correction_lattice (pk_box pk) (vadd (pt_pos p) (mvec (pt_rot p) c))) as Hl.
    revert Hl. generalize (correction (pk_box pk) (vadd (pt_pos p) (mvec (pt_rot p) c))). intros l Hl. unfold pt_pos, pt_rot.
    replace (vsub _ _) with l; auto. apply vec_ext; unfold vsub, vadd; simpl; ring.
Qed.

Definition to_contact (pk : packing) (x : nat * nat * vec) : contact :=
  let '(a, b, t) := x in
  let t0 := match pk_ng pk with Some _ => t | None => translation (pk_box pk) (spos pk a) (spos pk b) end in
  Contact (a / dims_of pk) (a mod dims_of pk) (b / dims_of pk) (b mod dims_of pk)
    (vadd t0 (vsub (vsub (spos pk b) (site_at pk b)) (vsub (spos pk a) (site_at pk a)))).

(** The box is wide enough for only one image of a particle to be within the range. *)
Definition wide (pk : packing) : Prop := forall a, (2 * in_rangeRadius inter < box_height (pk_box pk) a)%R.
Definition distance_ok (pk : packing) (wl : law R) : Prop :=
  orthogonal_sides (pk_box pk) \/ (forall r1 c1 r2 c2 d s s', wl r1 c1 r2 c2 d s = wl r1 c1 r2 c2 d s').

Section W.
Variables (W : vec -> mat -> nat -> vec -> mat -> nat -> bcond -> R) (wl : law R).
Notation range := (in_rangeRadius inter).
Hypothesis HW : follows W wl.
Hypothesis Hrange : forall r1 c1 r2 c2 d, (wl r1 c1 r2 c2 d (vnorm2 d) <> 0 -> vnorm d <= range)%R.

Lemma contact_disp pk a b t : inv pk ->
  contact_displacement inter (shapes_of pk) (to_contact pk (a, b, t)) =
  vsub (vadd (spos pk b) (match pk_ng pk with Some _ => t | None => translation (pk_box pk) (spos pk a) (spos pk b) end)) (spos pk a).
Proof.
  intros Hi. unfold contact_displacement, to_contact. cbn [ct_i ct_ci ct_j ct_cj ct_shift]. fold (site_at pk a) (site_at pk b).
  apply vec_ext; simpl; ring.
Qed.

Lemma div_mod_inj K a b : 0 < K -> a / K = b / K -> a mod K = b mod K -> a = b.
Proof. intros HK H1 H2. rewrite (Nat.div_mod a K), (Nat.div_mod b K) by lia. rewrite H1, H2. auto. Qed.

Lemma lattice_small b d1 d2 l : valid_box b -> is_lattice_vector b l -> d2 = vadd d1 l ->
  (forall a, Rabs (vget (absoluteToRelative b d1) a) <= 1 / 2)%R -> (forall a, Rabs (vget (absoluteToRelative b d2) a) < 1 / 2)%R -> l = vzero.
Proof.
  intros Hv (i & j & k & ->) -> H1 H2.
  assert (E : forall a z, vget (absoluteToRelative b (lattice_vector b i j k)) a = IZR z -> z = 0%Z).
  { intros a z Ez. specialize (H1 a). specialize (H2 a).
    replace (vget (absoluteToRelative b (vadd d1 (lattice_vector b i j k))) a) with
      (vget (absoluteToRelative b d1) a + vget (absoluteToRelative b (lattice_vector b i j k)) a)%R in H2.
    2: { rewrite a2r_add. destruct a; reflexivity. }
    rewrite Ez in H2. assert (H : (Rabs (IZR z) < 1)%R).
    { replace (IZR z) with ((vget (absoluteToRelative b d1) a + IZR z) - vget (absoluteToRelative b d1) a)%R by ring.
      eapply Rle_lt_trans; [apply Rabs_triang|]. rewrite Rabs_Ropp. lra. }
    rewrite <- abs_IZR in H. apply lt_IZR in H. lia. }
  rewrite a2r_lattice in E by auto. rewrite (E AX i), (E AY j), (E AZ k) by reflexivity.
  unfold lattice_vector. apply vec_ext; simpl; ring.
Qed.

Lemma contact_sum pk s : inv pk -> (pk_ng pk = None -> wide pk /\ distance_ok pk wl) ->
  sums_to (term_ok pk) (tv 0%R W pk) s ->
  sums_to (valid_contact (pk_box pk) (length (shapes_of pk)) inter) (contact_value wl inter (shapes_of pk)) s.
Proof.
  intros Hi Hw Hs. pose proof (inv_pgood inter pk Hi) as Hg. pose proof (sites_of_pos (pk_k pk)) as HK.
  pose proof (i_box _ _ Hi) as Hv.
  assert (Hlen : length (shapes_of pk) = pk_size pk) by apply map_length.
  assert (Hok : forall x, term_ok pk x -> valid_contact (pk_box pk) (length (shapes_of pk)) inter (to_contact pk x)).
  { intros [[a b] t] ((H1 & H1') & H2 & H3). unfold valid_contact, to_contact. cbn [ct_i ct_ci ct_j ct_cj ct_shift].
    rewrite (sites_no_of pk Hi), Hlen. pose proof (div_ne_lt (dims_of pk) a b HK H1 H2) as Hlt. pose proof H1' as Hb. apply div_lt_total in Hb.
    split; [split; auto|]. split; [apply Nat.mod_upper_bound; lia|]. split; [apply Nat.mod_upper_bound; lia|].
    apply lattice_add.
    - unfold shift_ok in H3. destruct (pk_ng pk); auto. apply translation_lattice.
    - replace (vsub (vsub (spos pk b) (site_at pk b)) (vsub (spos pk a) (site_at pk a))) with
        (vadd (vsub (spos pk b) (site_at pk b)) (vneg (vsub (spos pk a) (site_at pk a)))) by (apply vec_ext; simpl; ring).
      apply lattice_add; [apply spos_site; auto|]. apply vneg_is_lattice, spos_site; auto. lia. }
  assert (Hval : forall x, term_ok pk x -> tv 0%R W pk x = contact_value wl inter (shapes_of pk) (to_contact pk x)).
  { intros [[a b] t] Hx. pose proof Hx as ((H1 & H1') & H2 & H3). unfold contact_value. rewrite (contact_disp pk a b t Hi).
    unfold to_contact. cbn [ct_i ct_ci ct_j ct_cj]. rewrite <- !srot_shape by (auto; lia). unfold tv, rawv.
    destruct (Nat.eqb_spec (a / dims_of pk) (b / dims_of pk)); [contradiction|]. rewrite HW. unfold bc_of, shift_ok in *.
    destruct (pk_ng pk) as [g|] eqn:E; [reflexivity|]. cbn [periodic bc_translation bc_distance2].
    destruct (proj2 (Hw eq_refl)) as [Ho|Hd]; [|apply Hd]. rewrite distance2_orthogonal by auto. reflexivity. }
  apply (sums_to_map (term_ok pk) _ (to_contact pk) (tv 0%R W pk) (contact_value wl inter (shapes_of pk)) s); auto.
  - intros [[a b] t] [[a' b'] t'] H H' E. unfold to_contact in E. injection E as E1 E2 E3 E4 Ex Ey Ez.
    pose proof (div_mod_inj _ _ _ HK E1 E2). pose proof (div_mod_inj _ _ _ HK E3 E4). subst a' b'.
    destruct H as (_ & _ & H), H' as (_ & _ & H'). unfold shift_ok in *. destruct (pk_ng pk).
    + f_equal. apply vec_ext; simpl in *; lra.
    + subst. auto.
  - intros [i ci j cj l] ((H1 & H2) & H3 & H4 & H5) Hn. cbn [ct_i ct_ci ct_j ct_cj ct_shift] in *.
    rewrite (sites_no_of pk Hi) in *. rewrite Hlen in *.
    set (a := i * dims_of pk + ci). set (b := j * dims_of pk + cj).
    assert (Ea : a / dims_of pk = i) by (apply div_mul_add; auto). assert (Eb : b / dims_of pk = j) by (apply div_mul_add; auto).
    assert (Ma : a mod dims_of pk = ci) by (apply mod_mul_add; auto). assert (Mb : b mod dims_of pk = cj) by (apply mod_mul_add; auto).
    assert (Ta : a < sites_total pk) by (apply div_lt_total; rewrite Ea; lia).
    assert (Tb : b < sites_total pk) by (apply div_lt_total; rewrite Eb; lia).
    assert (Hab : a < b) by (apply (div_lt (dims_of pk)); auto; rewrite Ea, Eb; auto).
    set (t := vsub l (vsub (vsub (spos pk b) (site_at pk b)) (vsub (spos pk a) (site_at pk a)))).
    assert (Ht : is_lattice_vector (pk_box pk) t).
    { unfold t. replace (vsub l _) with (vadd l (vadd (vneg (vsub (spos pk b) (site_at pk b))) (vsub (spos pk a) (site_at pk a)))) by (apply vec_ext; simpl; ring).
      apply lattice_add; auto. apply lattice_add; [apply vneg_is_lattice|]; apply spos_site; auto. }
    unfold to_contact. destruct (pk_ng pk) as [g|] eqn:E.
    + exists (a, b, t). split.
      * split; auto. split; [rewrite Ea, Eb; lia|]. unfold shift_ok. rewrite E. auto.
      * rewrite Ea, Eb, Ma, Mb. f_equal. unfold t. apply vec_ext; simpl; ring.
    + exists (a, b, vzero). split.
      * split; auto. split; [rewrite Ea, Eb; lia|]. unfold shift_ok. rewrite E. auto.
      * rewrite Ea, Eb, Ma, Mb. f_equal.
        assert (Et : translation (pk_box pk) (spos pk a) (spos pk b) = t).
        { set (d1 := vsub (vadd (spos pk b) (translation (pk_box pk) (spos pk a) (spos pk b))) (spos pk a)).
          set (d2 := vsub (vadd (spos pk b) t) (spos pk a)).
          assert (Hz : vsub t (translation (pk_box pk) (spos pk a) (spos pk b)) = vzero).
          { apply (lattice_small (pk_box pk) d1 d2); auto.
            - replace (vsub t _) with (vadd t (vneg (translation (pk_box pk) (spos pk a) (spos pk b)))) by (apply vec_ext; simpl; ring).
              apply lattice_add; auto. apply vneg_is_lattice, translation_lattice.
            - unfold d1, d2. apply vec_ext; simpl; ring.
            - intros ax. apply translation_half; auto.
            - intros ax. destruct (Hw eq_refl) as [Hwide _]. specialize (Hwide ax).
              unfold contact_value in Hn. apply Hrange in Hn.
              replace (contact_displacement inter (shapes_of pk) (Contact i ci j cj l)) with d2 in Hn.
              2: { unfold contact_displacement, d2, t, site_at. cbn [ct_i ct_ci ct_j ct_cj ct_shift]. rewrite Ea, Eb, Ma, Mb. apply vec_ext; simpl; ring. }
              pose proof (height_bound (pk_box pk) ax d2 Hv). pose proof (height_pos (pk_box pk) ax Hv). pose proof (Rabs_pos (vget (absoluteToRelative (pk_box pk) d2) ax)). nra. }
          assert (X : forall u v, vsub u v = vzero -> v = u).
          { intros u v Huv. apply (f_equal (fun x => vadd x v)) in Huv. replace (vadd (vsub u v) v) with u in Huv by (apply vec_ext; simpl; ring).
            rewrite Huv. apply vec_ext; simpl; ring. }
          apply X; auto. }
        rewrite Et. unfold t. apply vec_ext; simpl; ring.
Qed.
End W.
End Contacts.
