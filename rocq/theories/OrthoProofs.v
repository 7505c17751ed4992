(** Proofs about orthorhombic arrangements. *)
From Coq Require Import Reals List Arith Bool Lia Lra.
From Verif Require Import GeomModel PbcModel RotSpec RotProofs OrthoModel OrthoSpec.
Import ListNotations.
Open Scope nat_scope.

Lemma rltb_t a b : Rltb a b = true <-> (a < b)%R.
Proof. unfold Rltb. destruct (Rlt_dec a b); split; intros; auto; try discriminate. Qed.
Lemma all_axes_t p : all_axes p = true <-> forall x, p x = true.
Proof. unfold all_axes. rewrite !andb_true_iff. split; [intros ((A & B) & C) []; auto|intros H; repeat split; apply H]. Qed.

(** *** Order of visits *)
Lemma nth_flat {A B} (f : A -> list B) n : 0 < n -> forall l m, (forall x, In x l -> List.length (f x) = n) ->
  nth_error (flat_map f l) m = match nth_error l (m / n) with Some x => nth_error (f x) (m mod n) | None => None end.
Proof.
  intros Hn. induction l as [|x l IH]; intros m H; cbn [flat_map].
  - destruct m; cbn; destruct (_ / _); reflexivity.
  - assert (L : List.length (f x) = n) by (apply H; left; reflexivity).
    destruct (Nat.lt_ge_cases m n) as [M|M].
    + rewrite nth_error_app1 by lia. rewrite Nat.div_small, Nat.mod_small by lia. reflexivity.
    + rewrite nth_error_app2 by lia. rewrite IH by (intros; apply H; right; auto). rewrite L.
      assert (D : m / n = S ((m - n) / n)) by (replace m with ((m - n) + 1 * n) at 1 by lia; rewrite Nat.div_add by lia; lia).
      assert (E : m mod n = (m - n) mod n) by (replace m with ((m - n) + 1 * n) at 1 by lia; rewrite Nat.mod_add by lia; reflexivity).
      rewrite D, E. reflexivity.
Qed.
Lemma len_flat {A B} (f : A -> list B) n l : (forall x, In x l -> List.length (f x) = n) -> List.length (flat_map f l) = List.length l * n.
Proof. induction l as [|x l IH]; intros H; cbn [flat_map]; [reflexivity|]. rewrite app_length, H, IH by (try (left; reflexivity); intros; apply H; right; auto). cbn. lia. Qed.
Lemma nth_seq n m : nth_error (seq 0 n) m = if Nat.ltb m n then Some m else None.
Proof.
  destruct (Nat.ltb_spec m n) as [H|H]; [|apply nth_error_None; rewrite seq_length; lia].
  destruct (nth_error (seq 0 n) m) eqn:E; [|apply nth_error_None in E; rewrite seq_length in E; lia].
  apply (nth_error_nth _ _ 0) in E. rewrite seq_nth in E by lia. subst. reflexivity.
Qed.
Section Visits.
Variable lines : axis -> nat.
Hypothesis pos : forall x, 0 < lines x.
Lemma len_row (i j : nat) : List.length (map (fun k => (i, j, k)) (seq 0 (lines AZ))) = lines AZ. Proof. rewrite map_length, seq_length. reflexivity. Qed.
Lemma len_plane (i : nat) : List.length (flat_map (fun j => map (fun k => (i, j, k)) (seq 0 (lines AZ))) (seq 0 (lines AY))) = lines AY * lines AZ.
Proof. rewrite (len_flat _ (lines AZ)), seq_length by (intros; apply len_row). reflexivity. Qed.
Lemma len_visited : List.length (visited lines) = sites lines.
Proof. unfold visited, sites. rewrite (len_flat _ (lines AY * lines AZ)), seq_length by (intros; apply len_plane). lia. Qed.
Lemma nth_visited m : m < sites lines -> nth_error (visited lines) m = Some (row lines m AX, row lines m AY, row lines m AZ).
Proof.
  intros H. unfold sites in H. pose proof (pos AX) as PX. pose proof (pos AY) as PY. pose proof (pos AZ) as PZ.
  unfold visited. rewrite (nth_flat _ (lines AY * lines AZ)) by (try apply Nat.mul_pos_pos; auto; intros; apply len_plane).
  rewrite nth_seq. assert (A : m / (lines AY * lines AZ) < lines AX) by (apply Nat.div_lt_upper_bound; lia).
  apply Nat.ltb_lt in A. rewrite A. rewrite (nth_flat _ (lines AZ)) by (auto; intros; apply len_row). rewrite nth_seq.
  replace (lines AY * lines AZ) with (lines AZ * lines AY) by lia. rewrite Nat.mod_mul_r by lia.
  assert (B : (m mod lines AZ + lines AZ * ((m / lines AZ) mod lines AY)) / lines AZ = (m / lines AZ) mod lines AY).
  { rewrite Nat.add_comm, (Nat.mul_comm (lines AZ)), Nat.div_add_l by lia. rewrite (Nat.div_small (m mod lines AZ)) by (apply Nat.mod_upper_bound; lia). lia. }
  assert (C : (m mod lines AZ + lines AZ * ((m / lines AZ) mod lines AY)) mod lines AZ = m mod lines AZ).
  { rewrite (Nat.mul_comm (lines AZ)), Nat.mod_add by lia. apply Nat.mod_mod. lia. }
  rewrite B, C. assert (D : (m / lines AZ) mod lines AY < lines AY) by (apply Nat.mod_upper_bound; lia). apply Nat.ltb_lt in D. rewrite D.
  rewrite nth_error_map, nth_seq. assert (E : m mod lines AZ < lines AZ) by (apply Nat.mod_upper_bound; lia). apply Nat.ltb_lt in E. rewrite E. reflexivity.
Qed.
Lemma row_bound m x : m < sites lines -> row lines m x < lines x.
Proof.
  intros H. unfold sites in H. pose proof (pos AX) as PX. pose proof (pos AY) as PY. pose proof (pos AZ) as PZ.
  destruct x; cbn; try (apply Nat.mod_upper_bound; lia). apply Nat.div_lt_upper_bound; lia.
Qed.
Lemma row_number m : m = (row lines m AX * lines AY + row lines m AY) * lines AZ + row lines m AZ.
Proof.
  pose proof (pos AX) as PX. pose proof (pos AY) as PY. pose proof (pos AZ) as PZ. cbn.
  pose proof (Nat.div_mod m (lines AZ) ltac:(lia)) as A. pose proof (Nat.div_mod (m / lines AZ) (lines AY) ltac:(lia)) as B. rewrite Nat.div_div in B by lia. nia.
Qed.
Lemma row_apart m m' : (forall x, row lines m x = row lines m' x) -> m = m'.
Proof. intros H. rewrite (row_number m), (row_number m'), !H. reflexivity. Qed.
(** The rows of a site and of the opposite one *)
Lemma row_of i j k m : i < lines AX -> j < lines AY -> k < lines AZ -> m = (i * lines AY + j) * lines AZ + k -> row lines m AX = i /\ row lines m AY = j /\ row lines m AZ = k.
Proof.
  intros Hi Hj Hk ->. cbn.
  assert (A : ((i * lines AY + j) * lines AZ + k) / lines AZ = i * lines AY + j) by (rewrite Nat.div_add_l by lia; rewrite (Nat.div_small k) by lia; lia).
  rewrite <- Nat.div_div by lia. rewrite A. repeat split.
  - rewrite Nat.div_add_l by lia. rewrite (Nat.div_small j) by lia. lia.
  - rewrite Nat.add_comm, Nat.mod_add by lia. apply Nat.mod_small. lia.
  - rewrite Nat.add_comm, Nat.mod_add by lia. apply Nat.mod_small. lia.
Qed.
Lemma row_opposite m x : m < sites lines -> row lines (sites lines - 1 - m) x = lines x - 1 - row lines m x.
Proof.
  intros H. pose proof (row_bound m AX H) as A. pose proof (row_bound m AY H) as B. pose proof (row_bound m AZ H) as C. pose proof (row_number m) as E.
  remember (row lines m AX) as i. remember (row lines m AY) as j. remember (row lines m AZ) as k.
  destruct (row_of (lines AX - 1 - i) (lines AY - 1 - j) (lines AZ - 1 - k) (sites lines - 1 - m)) as (X & Y & Z); try lia.
  - unfold sites in *. assert (exists u, lines AX = S (i + u)) as (u & Hu) by (exists (lines AX - 1 - i); lia). assert (exists v, lines AY = S (j + v)) as (v & Hv) by (exists (lines AY - 1 - j); lia). assert (exists w, lines AZ = S (k + w)) as (w & Hw) by (exists (lines AZ - 1 - k); lia).
    rewrite Hu, Hv, Hw in *. replace (S (i + u) - 1 - i) with u by lia. replace (S (j + v) - 1 - j) with v by lia. replace (S (k + w) - 1 - k) with w by lia. subst m.
    apply Nat.add_sub_eq_l. symmetry. enough (S (i + u) * S (j + v) * S (k + w) = 1 + ((i * S (j + v) + j) * S (k + w) + k) + ((u * S (j + v) + v) * S (k + w) + w)) by lia. ring.
  - destruct x; rewrite ?X, ?Y, ?Z; congruence.
Qed.
End Visits.

(** *** The loop *)
Lemma place_all_map a n cell offset ts : forall result, place_all a n cell offset ts result = result ++ map (place a cell offset) (firstn (n - List.length result) ts).
Proof.
  induction ts as [|t ts IH]; intros result; cbn [place_all]; [rewrite firstn_nil; symmetry; apply app_nil_r|].
  destruct (Nat.leb_spec n (List.length result)) as [H|H].
  - replace (n - List.length result) with 0 by lia. symmetry. apply app_nil_r.
  - rewrite IH, app_length. cbn [List.length]. replace (n - List.length result) with (S (n - (List.length result + 1))) by lia. cbn [firstn map]. rewrite <- app_assoc. reflexivity.
Qed.

(** *** Rotations *)
Lemma mat_eq m m' : (forall v, mvec m v = mvec m' v) -> m = m'.
Proof.
  intros H. pose proof (H (V3 1 0 0)) as A. pose proof (H (V3 0 1 0)) as B. pose proof (H (V3 0 0 1)) as C. destruct m, m'. cbn in A, B, C. unfold vdot in *. cbn in A, B, C.
  injection A as ? ? ?. injection B as ? ? ?. injection C as ? ? ?. f_equal; lra.
Qed.
Lemma mvec_lin m u v : mvec m (vadd u v) = vadd (mvec m u) (mvec m v).
Proof. destruct u as [p q r], v as [p1 q1 r1]. cbv [mvec vmake vadd vdot vx vy vz]. f_equal; ring. Qed.
Lemma mvec_sc m t v : mvec m (vscale t v) = vscale t (mvec m v).
Proof. destruct v as [p q r]. cbv [mvec vmake vscale vdot vx vy vz]. f_equal; ring. Qed.
Lemma about_one m m' a t : vnorm2 a = 1%R -> rotates_about m a t -> rotates_about m' a t -> m = m'.
Proof.
  intros N (A & B) (A' & B'). apply mat_eq. intros v.
  assert (E : v = vadd (vscale (vdot a v) a) (vsub v (vscale (vdot a v) a))) by (destruct v as [p q r]; unfold vadd, vsub, vscale; cbv [vx vy vz]; f_equal; ring).
  assert (P : vdot a (vsub v (vscale (vdot a v) a)) = 0%R).
  { transitivity (vdot a v - vdot a v * vnorm2 a)%R; [destruct v, a; unfold vdot, vsub, vscale, vnorm2, vdot; cbn; ring|rewrite N; ring]. }
  rewrite E, !mvec_lin, !mvec_sc, A, A', (B _ P), (B' _ P). reflexivity.
Qed.
Lemma unit_one x : vnorm2 (unit_vector x) = 1%R.
Proof. destruct x; cbv [vnorm2 vdot unit_vector vx vy vz]; ring. Qed.
Lemma about_axis x t : rotates_about (rotation_about x t) (unit_vector x) t.
Proof.
  split.
  - destruct x; cbv [rotation_about unit_vector mvec mrot_xyz vmake mget vx vy vz m00 m01 m02 m10 m11 m12 m20 m21 m22]; rewrite ?cos_0, ?sin_0; f_equal; ring.
  - intros [p q r] H. destruct x; cbv [rotation_about unit_vector mvec mrot_xyz vdot vadd vscale vcross vmake mget vx vy vz m00 m01 m02 m10 m11 m12 m20 m21 m22] in *; rewrite ?cos_0, ?sin_0.
    + assert (p = 0)%R by lra. subst. f_equal; ring.
    + assert (q = 0)%R by lra. subst. f_equal; ring.
    + assert (r = 0)%R by lra. subst. f_equal; ring.
Qed.
