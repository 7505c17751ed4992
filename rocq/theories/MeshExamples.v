From Coq Require Import Reals List Lra Arith Lia Bool.
From Verif Require Import GeomModel GeomProofs GeoModel RotSpec RotProofs XcModel XcSpec XcPrimProofs XcBuildProofs MeshModel MeshSpec MeshProofs MeshListProofs MeshHullProofs OptModel.
Import ListNotations.
Open Scope R_scope.

(** A (slow) convex hull: all triangles with all points at one side. *)
Definition keep (ps : list vec) (t : triangle) : bool :=
  let '(i, j, k) := t in
  match nth_error ps i, nth_error ps j, nth_error ps k with
  | Some p0, Some p1, Some p2 =>
    let n := vcross (vsub p1 p0) (vsub p2 p0) in
    forallb (fun v => Rleb (vdot n (vsub v p0)) 0) ps || forallb (fun v => Rleb 0 (vdot n (vsub v p0))) ps
  | _, _, _ => false
  end.
Definition triples (n : nat) : list triangle :=
  flat_map (fun i => flat_map (fun j => map (fun k => (i, j, k)) (seq 0 n)) (seq 0 n)) (seq 0 n).
Definition slow_hull (ps : list vec) : list vec * list nat :=
  (ps, flat_map (fun t => let '(i, j, k) := t in [i; j; k]) (filter (keep ps) (triples (length ps)))).
Lemma slow_hull_ok : hull_library slow_hull.
Proof.
  intros ps. unfold slow_hull. split; [apply incl_refl|]. split.
  { intros p P c C H. apply (H (point_body p)); [apply in_map; exact P|reflexivity]. }
  generalize (triples (length ps)). intros ts. induction ts as [|[[i j] k] ts (fs & F1 & F2)]; [exists []; split; constructor|].
  cbn [filter]. destruct (keep ps (i, j, k)) eqn:K; [|exists fs; auto].
  cbn [keep] in K. destruct (nth_error ps i) as [p0|] eqn:A; [|discriminate]. destruct (nth_error ps j) as [p1|] eqn:B; [|discriminate].
  destruct (nth_error ps k) as [p2|] eqn:C; [|discriminate].
  exists ((p0, p1, p2) :: fs). cbn [flat_map app]. split; [constructor; assumption|]. constructor; [|exact F2].
  apply orb_prop in K as [K|K]; rewrite forallb_forall in K; [left|right]; intros v V; specialize (K v V); apply Rleb_true in K; exact K.
Qed.
Lemma unit_any u : unit_vec u -> any_direction u.
Proof. intros U E. unfold unit_vec in U. rewrite E in U. unfold vnorm, vnorm2, vdot, vzero in U. cbn in U. replace (0 * 0 + 0 * 0 + 0 * 0) with 0 in U by ring. rewrite sqrt_0 in U. lra. Qed.
Lemma ball_mesh n : exists g p, xc_sphere 1 = Some g /\ buildPolyhedron slow_hull g n = Some p /\ (forall y, points_hull (po_vertices p) y -> vnorm y <= 1).
Proof.
  destruct (makes_sphere 1) as (g & G & _); [lra|]. destruct (sphere_ok 1 g G) as (_ & S & _).
  destruct (mesh_inside slow_hull g (ball_body 1) any_direction n slow_hull_ok S unit_any) as (p & P & I & _). exists g, p. auto.
Qed.
Lemma ball_diameter : diameter_le (ball_body 1) 2.
Proof.
  intros x y X Y. unfold ball_body in *. pose proof (vnorm_triangle x (vneg y)) as T.
  replace (vadd x (vneg y)) with (vsub x y) in T by (apply vec_ext; vecs; ring).
  assert (vnorm (vneg y) = vnorm y) by (unfold vnorm; f_equal; vecs; ring). lra.
Qed.
Definition octahedron := Poly vzero octahedron_verts octahedron_tris.
Lemma octahedron_face_list : Forall2 (face octahedron) (po_triangles octahedron) octahedron_faces.
Proof. repeat constructor. Qed.
Lemma octahedron_volume : getVolume octahedron = Some (4 / 3) /\ points_hull (po_vertices octahedron) (po_centre octahedron).
Proof.
  split.
  - rewrite (volume_faces octahedron octahedron_faces octahedron_face_list). f_equal.
    assert (T : forall f, In f octahedron_faces -> tetra vzero f = 1 / 6).
    { intros f F. unfold octahedron_faces in F. cbv zeta in F.
      assert (E : Rabs (vdot (normal f) (vsub (first f) vzero)) = 1); [|unfold tetra; rewrite E; lra].
      repeat (destruct F as [<-|F]; [unfold normal, first, vzero; cbn [fst]; vecs; match goal with |- Rabs ?x = 1 => (replace x with 1 by ring; apply Rabs_R1) || (replace x with (-1) by ring; rewrite Rabs_left; lra) end|]). destruct F. }
    cbn [po_centre octahedron]. unfold octahedron_faces in *. cbv zeta in *. cbn [map fold_right].
    rewrite !T by (cbn [In]; tauto). lra.
  - intros c C H. cbn [po_centre octahedron].
    replace vzero with (vadd (vscale (1 - 1 / 2) (V3 1 0 0)) (vscale (1 / 2) (V3 (-1) 0 0))) by (apply vec_ext; unfold vzero; vecs; lra).
    apply C; [apply (H (point_body (V3 1 0 0)))|apply (H (point_body (V3 (-1) 0 0)))|lra]; try reflexivity; apply in_map; cbn [po_vertices octahedron octahedron_verts In]; tauto.
Qed.
(** The centre is not turned. *)
Definition off_centre := Poly (V3 1 0 0) [V3 0 0 0; V3 0 1 0; V3 0 0 1] [(0, 1, 2)%nat].
Definition quarter_turn : mat := M33 0 (-1) 0 1 0 0 0 0 1.
Lemma quarter_rotation : rotation quarter_turn.
Proof. split; intros u v; [|apply vec_ext]; unfold quarter_turn, mvec, vmake; cbn [mget]; vecs; cbn; ring. Qed.
Lemma volume_changes : rotation quarter_turn /\ getVolume off_centre = Some (1 / 6) /\ getVolume (transformed vzero quarter_turn off_centre) = Some 0.
Proof.
  split; [exact quarter_rotation|].
  assert (F : Forall2 (face off_centre) (po_triangles off_centre) [(V3 0 0 0, V3 0 1 0, V3 0 0 1)]) by (repeat constructor).
  split.
  - rewrite (volume_faces _ _ F). cbn [map fold_right]. f_equal. unfold tetra, normal, first. cbn [fst po_centre off_centre]. vecs.
    match goal with |- Rabs ?x / 6 + 0 = _ => replace x with (-1) by ring end. rewrite Rabs_left; lra.
  - rewrite (volume_faces _ (map (moved_face quarter_turn vzero) [(V3 0 0 0, V3 0 1 0, V3 0 0 1)])).
    + cbn [map fold_right]. f_equal. unfold tetra, moved_face, normal, first. cbn [fst po_centre off_centre transformed]. unfold quarter_turn, mvec, vmake, vzero. cbn [mget m00 m01 m02 m10 m11 m12 m20 m21 m22]. vecs.
      match goal with |- Rabs ?x / 6 + 0 = _ => replace x with 0 by ring end. rewrite Rabs_R0. lra.
    + apply Forall2_map_r. cbn [po_triangles transformed]. revert F. apply Forall2_mono. intros t f. apply face_moved.
Qed.
