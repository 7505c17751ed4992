From Coq Require Import Reals List Arith Lia Lra Psatz.
From Verif Require Import GeomModel GeomProofs GeoModel RotSpec RotProofs XcModel XcSpec MeshModel MeshSpec MeshProofs MeshListProofs OptModel.
Import ListNotations.
Open Scope R_scope.

Lemma near_direction n u vs : generateSpherePoints n = Some vs -> unit_vec u -> exists v, In v vs /\ 1 - vdot u v <= / 2 ^ n.
Proof.
  intros G U. destruct (sphere_points n) as (vs' & G' & I & _). assert (vs' = vs) by congruence. subst vs'.
  destruct (facets_cover n u) as (a & b & c & F & C). exists a. split; [apply I; exists b, c; exact F|].
  destruct (pow_le_1 n). eapply cone_near; [apply facet_fine; exact F|lra|exact U|exact C].
Qed.
Lemma points_unit n vs v : generateSpherePoints n = Some vs -> In v vs -> unit_vec v /\ In (vneg v) vs.
Proof.
  intros G V. destruct (sphere_points n) as (vs' & G' & I & _). assert (vs' = vs) by congruence. subst vs'.
  apply I in V as (b & c & F). split; [apply (facet_fine _ _ _ _ F)|]. apply I. exists (vneg b), (vneg c). apply facet_neg, F.
Qed.

Lemma all_some_Forall2 {A B} (f : A -> option B) l : (forall a, In a l -> exists b, f a = Some b) ->
  exists r, all_some (map f l) = Some r /\ Forall2 (fun a b => f a = Some b) l r.
Proof.
  induction l as [|a l IH]; intros H; [exists []; split; [reflexivity|constructor]|].
  destruct (H a) as (b & B0); [left; reflexivity|]. destruct IH as (r & R1 & R2); [intros; apply H; right; assumption|].
  exists (b :: r). split; [cbn [map all_some]; rewrite B0; cbn [obind]; rewrite R1; reflexivity|constructor; assumption].
Qed.
Lemma Forall2_in_r {A B} (P : A -> B -> Prop) l m b : Forall2 P l m -> In b m -> exists a, In a l /\ P a b.
Proof. induction 1 as [|x y l m XY F IH]; [intros []|]. intros [<-|I]; [exists x; cbn; auto|]. destruct (IH I) as (a & ? & ?). exists a. cbn; auto. Qed.
Lemma Forall2_in_l {A B} (P : A -> B -> Prop) l m a : Forall2 P l m -> In a l -> exists b, In b m /\ P a b.
Proof. induction 1 as [|x y l m XY F IH]; [intros []|]. intros [<-|I]; [exists y; cbn; auto|]. destruct (IH I) as (b & ? & ?). exists b. cbn; auto. Qed.

Lemma hull_max vs u p : points_hull vs p -> exists v, In v vs /\ vdot u p <= vdot u v.
Proof.
  intros H. apply (H (fun x => exists v, In v vs /\ vdot u x <= vdot u v)).
  - intros x y k (v & V & X) (w & W & Y) K. rewrite vdot_add_r, !vdot_scale_r.
    destruct (Rle_dec (vdot u v) (vdot u w)); [exists w|exists v]; split; try assumption; nra.
  - intros b x B X. apply in_map_iff in B as (v & <- & V). unfold point_body in X. subst x. exists v. split; [exact V|lra].
Qed.
Lemma hull_in vs (b : body) p : convex b -> (forall v, In v vs -> b v) -> points_hull vs p -> b p.
Proof. intros C V H. apply H; [exact C|]. intros c x B X. apply in_map_iff in B as (v & <- & W). unfold point_body in X. subst x. apply V, W. Qed.
Lemma hull_side vs n q p : (forall v, In v vs -> vdot n (vsub v q) <= 0) -> points_hull vs p -> vdot n (vsub p q) <= 0.
Proof.
  intros V H. apply (H (fun x => vdot n (vsub x q) <= 0)).
  - intros x y k X Y K. rewrite vdot_sub_r in *. rewrite vdot_add_r, !vdot_scale_r. nra.
  - intros b x B X. apply in_map_iff in B as (v & <- & W). unfold point_body in X. subst x. apply V, W.
Qed.

Lemma near_extent u v p s d e : unit_vec u -> unit_vec v -> 1 - vdot u v <= e -> vdot p v <= vdot s v -> vnorm (vsub p s) <= d -> vdot u p <= vdot u s + sqrt (2 * e) * d.
Proof.
  intros U V E S D.
  assert (X : vdot u p - vdot u s = (vdot p v - vdot s v) + vdot (vsub u v) (vsub p s)) by (vecs; ring).
  pose proof (cauchy_schwarz (vsub u v) (vsub p s)) as CS. pose proof (Rle_abs (vdot (vsub u v) (vsub p s))) as A.
  assert (N : vnorm (vsub u v) <= sqrt (2 * e)).
  { unfold vnorm. apply sqrt_le_1_alt. apply unit_dot in U, V. change (vnorm2 (vsub u v)) with (vdot (vsub u v) (vsub u v)).
    assert (Y : vdot (vsub u v) (vsub u v) = vdot u u + vdot v v - 2 * vdot u v) by (vecs; ring). lra. }
  pose proof (vnorm_nonneg (vsub u v)). pose proof (vnorm_nonneg (vsub p s)). pose proof (sqrt_pos (2 * e)).
  assert (vnorm (vsub u v) * vnorm (vsub p s) <= sqrt (2 * e) * d) by (apply Rmult_le_compat; assumption). lra.
Qed.

(** *** Triangles *)
Lemma by_three_spec vs is fs : face_indices vs is fs -> exists ts, by_three is = Some ts /\
  Forall2 (fun t f => let '(i, j, k) := t in let '(p0, p1, p2) := f in nth_error vs i = Some p0 /\ nth_error vs j = Some p1 /\ nth_error vs k = Some p2) ts fs.
Proof.
  induction 1 as [|i j k l p0 p1 p2 fs A B C F (ts & E & T)]; [exists []; split; [reflexivity|constructor]|].
  exists ((i, j, k) :: ts). split; [cbn [by_three]; rewrite E; reflexivity|]. constructor; [auto|exact T].
Qed.
Lemma by_three_length : forall k l ts, (length l <= k)%nat -> by_three l = Some ts -> length l = (length ts * 3)%nat.
Proof.
  induction k as [|k IH]; intros l ts K E.
  - destruct l; [injection E as <-; reflexivity|cbn in K; lia].
  - destruct l as [|i [|j [|h l]]]; try discriminate E; [injection E as <-; reflexivity|]. cbn [by_three] in E.
    destruct (by_three l) as [r|] eqn:B; [|discriminate E]. injection E as <-. cbn [length] in *. rewrite (IH l r ltac:(lia) B). lia.
Qed.
(** A group of less than three indices at the end is an error. *)
Lemma mesh_refused quickhull g n : (forall ps, length (snd (quickhull ps)) mod 3 <> 0)%nat -> buildPolyhedron quickhull g n = None.
Proof.
  intros Q. unfold buildPolyhedron. destruct (generateSpherePoints n) as [d|]; [|reflexivity]. cbn [obind].
  destruct (all_some (map (xc_support g) d)) as [ps|]; [|reflexivity]. cbn [obind]. specialize (Q ps). destruct (quickhull ps) as [vs is]. cbn [snd] in Q.
  destruct (by_three is) as [ts|] eqn:B; [|reflexivity]. exfalso. apply Q. rewrite (by_three_length _ _ _ (Nat.le_refl _) B). apply Nat.mod_mul. discriminate.
Qed.
Definition turned (c : vec) (f : tri3) : tri3 :=
  let '(p0, p1, p2) := f in if Rltb (vdot (vcross (vsub p1 p0) (vsub p2 p1)) (vsub p0 c)) 0 then (p1, p0, p2) else (p0, p1, p2).
Lemma orient_spec c vs ts fs cc : Forall2 (resolve vs) ts fs ->
  exists ts', all_some (map (orient c vs) ts) = Some ts' /\ Forall2 (face (Poly cc vs ts')) ts' (map (turned c) fs).
Proof.
  intros F. assert (exists ts', all_some (map (orient c vs) ts) = Some ts' /\ Forall2 (resolve vs) ts' (map (turned c) fs)) as (ts' & E & R).
  { induction F as [|[[i j] k] [[p0 p1] p2] ts fs (A & B & C) F (ts' & E & R)]; [exists []; split; [reflexivity|constructor]|].
    cbn [map all_some orient]. rewrite A, B, C. cbn [obind]. rewrite E. cbn [obind].
    eexists. split; [reflexivity|]. constructor; [|exact R]. cbn [turned].
    destruct (Rltb _ 0); cbn [resolve]; auto. }
  exists ts'. split; [exact E|exact R].
Qed.
Lemma turned_same c f : same_face f (turned c f).
Proof. destruct f as [[p0 p1] p2]. cbn [turned]. destruct (Rltb _ 0); cbn; auto. Qed.
Lemma turned_outward c f : outward c (turned c f).
Proof.
  destruct f as [[p0 p1] p2]. cbn [turned].
  destruct (Rltb (vdot (vcross (vsub p1 p0) (vsub p2 p1)) (vsub p0 c)) 0) eqn:E; unfold outward, first, normal; cbn [fst];
  [apply Rltb_true in E|apply Rltb_false in E]; vecs; nra.
Qed.
Lemma turned_side vs c f : (let '(p0, p1, p2) := f in one_side vs p0 p1 p2) -> points_hull vs c ->
  0 < vdot (normal (turned c f)) (vsub (first (turned c f)) c) -> (let '(p0, p1, p2) := f in In p0 vs /\ In p1 vs) -> counter_clockwise vs (turned c f).
Proof.
  destruct f as [[p0 p1] p2]. intros O H P [I0 I1].
  assert (O' : one_side vs (fst (fst (turned c (p0, p1, p2)))) (snd (fst (turned c (p0, p1, p2)))) p2 /\ snd (turned c (p0, p1, p2)) = p2).
  { cbn [turned]. destruct (Rltb _ 0); cbn [fst snd]; (split; [|reflexivity]); [|exact O].
    assert (Z : forall v, vdot (vcross (vsub p0 p1) (vsub p2 p1)) (vsub v p1) = - vdot (vcross (vsub p1 p0) (vsub p2 p0)) (vsub v p0)) by (vecs; ring).
    destruct O as [O|O]; [right|left]; intros v V; rewrite Z; specialize (O v V); lra. }
  destruct (turned c (p0, p1, p2)) as [[q0 q1] q2]. cbn [fst snd] in O'. destruct O' as [O' ->].
  unfold counter_clockwise, first, normal in *. cbn [fst] in *.
  destruct O' as [O'|O']; [exact O'|].
  set (n := vcross (vsub q1 q0) (vsub p2 q0)) in *.
  assert (X : vdot (vneg n) (vsub c q0) <= 0).
  { apply (hull_side vs); [|exact H]. intros v V. specialize (O' v V). assert (Y : forall w, vdot (vneg n) w = - vdot n w) by (vecs; ring). rewrite Y. lra. }
  assert (Y : vdot (vneg n) (vsub c q0) = vdot n (vsub q0 c)) by (vecs; ring). lra.
Qed.
Lemma Forall2_map_r {A B C} (P : A -> C -> Prop) (f : B -> C) l m : Forall2 (fun a b => P a (f b)) l m -> Forall2 P l (map f m).
Proof. induction 1; constructor; auto. Qed.

Lemma mesh quickhull g b ok n : hull_library quickhull -> shaped ok g b -> (forall u, unit_vec u -> ok u) ->
  exists dirs ps p fs, generateSpherePoints n = Some dirs /\ Forall2 (fun u s => xc_support g u = Some s /\ supports b u s) dirs ps /\
    buildPolyhedron quickhull g n = Some p /\ po_centre p = xc_centre g /\ po_vertices p = fst (quickhull ps) /\
    (forall v, In v (po_vertices p) -> b v) /\ (forall y, points_hull (po_vertices p) y -> b y) /\
    (forall d u y, diameter_le b d -> unit_vec u -> b y -> exists v, In v (po_vertices p) /\ vdot u y <= vdot u v + sqrt (2 * / 2 ^ n) * d) /\
    face_indices (po_vertices p) (snd (quickhull ps)) fs /\
    Forall2 (face p) (po_triangles p) (map (turned (xc_centre g)) fs) /\
    (points_hull (po_vertices p) (xc_centre g) -> forall f, In f (map (turned (xc_centre g)) fs) ->
       0 < vdot (normal f) (vsub (first f) (xc_centre g)) -> counter_clockwise (po_vertices p) f).
Proof.
  intros Q (CV & CE & SU) OK. destruct (sphere_points n) as (dirs & G & I & _).
  destruct (all_some_Forall2 (xc_support g) dirs) as (ps & A & F).
  { intros v V. destruct (points_unit n dirs v G V) as [U _]. destruct (SU v (OK v U)) as (s & S & _). exists s. exact S. }
  assert (F' : Forall2 (fun u s => xc_support g u = Some s /\ supports b u s) dirs ps).
  { assert (Z : forall v s, In v dirs -> xc_support g v = Some s -> supports b v s).
    { intros v s V S. destruct (points_unit n dirs v G V) as [U _]. destruct (SU v (OK v U)) as (s' & S' & W). congruence. }
    clear A I G. revert Z. induction F as [|u s l m E F IH]; intros Z; constructor.
    - split; [exact E|apply Z; [left; reflexivity|exact E]].
    - apply IH. intros. apply Z; [right; assumption|assumption]. }
  assert (PB : forall s, In s ps -> b s) by (intros s S; destruct (Forall2_in_r _ _ _ _ F' S) as (u & _ & _ & W & _); exact W).
  pose proof (Q ps) as H. destruct (quickhull ps) as [vs is] eqn:E. destruct H as (H1 & H2 & fs & H3 & H4).
  destruct (by_three_spec vs is fs H3) as (ts & T1 & T2).
  destruct (orient_spec (xc_centre g) vs ts fs (xc_centre g) T2) as (ts' & T3 & T4).
  exists dirs, ps, (Poly (xc_centre g) vs ts'), fs. cbn [po_centre po_vertices po_triangles fst snd].
  split; [exact G|]. split; [exact F'|]. split.
  { unfold buildPolyhedron. rewrite G. cbn [obind]. rewrite A. cbn [obind]. rewrite E, T1. cbn [obind]. rewrite T3. reflexivity. }
  split; [reflexivity|]. rewrite E. cbn [fst snd]. split; [reflexivity|]. split; [intros v V; apply PB, H1, V|].
  split; [intros y Y; apply (hull_in vs b y CV); [intros v V; apply PB, H1, V|exact Y]|]. split.
  { intros d u y D U Y. destruct (near_direction n u dirs G U) as (v & V & N).
    destruct (Forall2_in_l _ _ _ _ F' V) as (s & S & _ & BS & MS). destruct (points_unit n dirs v G V) as [UV _].
    destruct (hull_max vs u s (H2 s S)) as (w & W & X). exists w. split; [exact W|].
    pose proof (near_extent u v y s d (/ 2 ^ n) U UV N (MS y Y) (D y s Y BS)). lra. }
  split; [exact H3|]. split; [exact T4|].
  intros HC f IF P. apply in_map_iff in IF as (f0 & <- & I0). rewrite Forall_forall in H4. specialize (H4 f0 I0).
  apply turned_side; try assumption.
  destruct (Forall2_in_r _ _ _ _ T2 I0) as ([[i j] k] & _ & R). destruct f0 as [[p0 p1] p2]. destruct R as (R0 & R1 & R2).
  split; eapply nth_error_In; eassumption.
Qed.

(** *** Volumes *)
Lemma fold_left_plus l : forall a, fold_left Rplus l a = a + fold_right Rplus 0 l.
Proof. induction l as [|x l IH]; intros a; cbn [fold_left fold_right]; [lra|]. rewrite IH. lra. Qed.
Definition tetra (c : vec) (f : tri3) : R := Rabs (vdot (normal f) (vsub (first f) c)) / 6.
Lemma tetrahedron_face p t f : face p t f -> tetrahedron p t = Some (tetra (po_centre p) f).
Proof.
  destruct t as [[i j] k], f as [[p0 p1] p2]. intros (A & B & C). unfold tetrahedron. rewrite A, B, C. cbn [obind]. f_equal.
  unfold tetra, normal, first. cbn [fst].
  replace (vdot (vcross (vsub p2 p0) (vsub p2 p1)) (vsub p2 (po_centre p))) with (vdot (vcross (vsub p1 p0) (vsub p2 p0)) (vsub p0 (po_centre p))) by (vecs; ring). lra.
Qed.
Lemma volume_faces p fs : Forall2 (face p) (po_triangles p) fs -> getVolume p = Some (fold_right Rplus 0 (map (tetra (po_centre p)) fs)).
Proof.
  intros F. unfold getVolume.
  assert (E : all_some (map (tetrahedron p) (po_triangles p)) = Some (map (tetra (po_centre p)) fs)).
  { induction F as [|t f ts fs' T F IH]; [reflexivity|]. cbn [map all_some]. rewrite (tetrahedron_face p t f T). cbn [obind]. rewrite IH. reflexivity. }
  rewrite E. cbn [obind]. rewrite fold_left_plus. f_equal. lra.
Qed.
Lemma volume_pyramids p fs : Forall2 (face p) (po_triangles p) fs -> Forall (outward (po_centre p)) fs -> getVolume p = Some (pyramids (po_centre p) fs).
Proof.
  intros F O. rewrite (volume_faces p fs F). f_equal. clear F. unfold pyramids.
  induction O as [|f fs' O1 O2 IH]; [reflexivity|]. cbn [map fold_right]. rewrite IH. unfold tetra. rewrite Rabs_right; [lra|]. unfold outward in O1. lra.
Qed.
Definition moved_face (m : mat) (pos : vec) (f : tri3) : tri3 :=
  let '(p0, p1, p2) := f in (vadd (mvec m p0) pos, vadd (mvec m p1) pos, vadd (mvec m p2) pos).
Lemma face_moved m pos p t f : face p t f -> face (transformed pos m p) t (moved_face m pos f).
Proof.
  destruct t as [[i j] k], f as [[p0 p1] p2]. intros (A & B & C). unfold face, transformed, moved_face. cbn [po_vertices].
  rewrite !nth_error_map, A, B, C. auto.
Qed.
Lemma vsub_move m pos a b : vsub (vadd (mvec m a) pos) (vadd (mvec m b) pos) = mvec m (vsub a b).
Proof. rewrite mvec_sub. apply vec_ext; vecs; ring. Qed.
Lemma tetra_moved m pos c f : rotation m -> tetra (vadd (mvec m c) pos) (moved_face m pos f) = tetra c f.
Proof.
  intros [RD RC]. destruct f as [[p0 p1] p2]. unfold tetra, moved_face, normal, first. cbn [fst].
  rewrite !vsub_move, <- RC, RD. reflexivity.
Qed.
Lemma volume_moved m pos p fs : rotation m -> Forall2 (face p) (po_triangles p) fs -> mvec m (po_centre p) = po_centre p ->
  getVolume (transformed pos m p) = getVolume p.
Proof.
  intros R F C. rewrite (volume_faces p fs F).
  rewrite (volume_faces (transformed pos m p) (map (moved_face m pos) fs)).
  - f_equal. rewrite map_map. f_equal. apply map_ext. intros f. cbn [po_centre transformed]. rewrite <- (tetra_moved m pos (po_centre p) f R), C. reflexivity.
  - cbn [po_triangles transformed]. apply Forall2_map_r. revert F. apply Forall2_mono. intros t f. apply face_moved.
Qed.

(** *** The statements *)
Lemma sphere_all n : exists vs, generateSpherePoints n = Some vs /\ (length vs + 2 = 8 * 4 ^ n)%nat /\ (forall v, In v vs <-> exists b c, facet n v b c) /\
  (forall v, In v vs -> unit_vec v /\ In (vneg v) vs) /\ (forall u, unit_vec u -> exists v, In v vs /\ 1 - vdot u v <= / 2 ^ n).
Proof.
  destruct (sphere_points n) as (vs & G & I & L & _). exists vs. split; [exact G|]. split; [exact L|]. split; [exact I|].
  split; [intros v V; exact (points_unit n vs v G V)|]. intros u U. exact (near_direction n u vs G U).
Qed.
Lemma sphere_more n vs vs' : generateSpherePoints n = Some vs -> generateSpherePoints (S n) = Some vs' -> exists more, vs' = vs ++ more.
Proof.
  unfold generateSpherePoints. rewrite loop_snoc. destruct (sphere_spec n) as (verts & tris & fs & E & R & G & _). rewrite E. cbn [obind fst snd].
  intros H. injection H as <-. destruct (divide_spec n tris verts fs R G) as (fs' & ms & tris' & _ & E' & _). rewrite E'. cbn [obind fst].
  intros H. injection H as <-. exists ms. reflexivity.
Qed.
Lemma mesh_inside quickhull g b ok n : hull_library quickhull -> shaped ok g b -> (forall u, unit_vec u -> ok u) ->
  exists p, buildPolyhedron quickhull g n = Some p /\ (forall y, points_hull (po_vertices p) y -> b y) /\
    (forall d u y, diameter_le b d -> unit_vec u -> b y -> exists v, In v (po_vertices p) /\ vdot u y <= vdot u v + sqrt (2 * / 2 ^ n) * d).
Proof.
  intros Q S O. destruct (mesh quickhull g b ok n Q S O) as (dirs & ps & p & fs & _ & _ & B & _ & _ & _ & H & D & _). exists p. auto.
Qed.
Lemma mesh_faces quickhull g b ok n : hull_library quickhull -> shaped ok g b -> (forall u, unit_vec u -> ok u) ->
  exists dirs ps p fs fs', generateSpherePoints n = Some dirs /\ Forall2 (fun u s => xc_support g u = Some s /\ supports b u s) dirs ps /\
    buildPolyhedron quickhull g n = Some p /\ po_centre p = xc_centre g /\ po_vertices p = fst (quickhull ps) /\
    face_indices (po_vertices p) (snd (quickhull ps)) fs /\ Forall2 (face p) (po_triangles p) fs' /\ Forall2 same_face fs fs' /\
    Forall (outward (xc_centre g)) fs' /\
    (points_hull (po_vertices p) (xc_centre g) -> forall f, In f fs' ->
       0 < vdot (normal f) (vsub (first f) (xc_centre g)) -> counter_clockwise (po_vertices p) f) /\
    getVolume p = Some (pyramids (xc_centre g) fs').
Proof.
  intros Q S O. destruct (mesh quickhull g b ok n Q S O) as (dirs & ps & p & fs & G & F & B & C & V & _ & _ & _ & FI & FP & CC).
  exists dirs, ps, p, fs, (map (turned (xc_centre g)) fs).
  assert (OW : Forall (outward (xc_centre g)) (map (turned (xc_centre g)) fs)).
  { apply Forall_forall. intros f I. apply in_map_iff in I as (f0 & <- & _). apply turned_outward. }
  repeat (split; [assumption|]). split.
  { clear. induction fs as [|f fs IH]; constructor; [apply turned_same|exact IH]. }
  split; [exact OW|]. split; [exact CC|]. pose proof (volume_pyramids p _ FP) as VP. rewrite C in VP. apply VP, OW.
Qed.
Lemma transformed_faces m pos p t p0 p1 p2 : face p t (p0, p1, p2) ->
  face (transformed pos m p) t (vadd (mvec m p0) pos, vadd (mvec m p1) pos, vadd (mvec m p2) pos).
Proof. apply face_moved. Qed.
