From Coq Require Import ZArith Reals List Bool Arith Permutation Sorting.Sorted Lra Lia.
From Verif Require Import TextModel GeomModel GeomProofs BoxModel BoxSpec BoxProofs PbcModel PbcSpec PbcProofs RFloorModel RFloorProofs LatticeModel LatticeSpec LatticeProofs LatticeNormProofs PackModel RotModel RotSpec OptModel TransModel TransSpec TransProofs TransLayerProofs.
Import ListNotations.
Local Open Scope nat_scope.

(** *** Changes of cells *)
Lemma modify_cell_spec l b d k c f ms' : valid l b d k -> (exists k0, built l b d k0) -> in_range c d -> f (k c) = Some ms' ->
  exists l', modify_cell l c f = Some l' /\ valid l' b d (fun c' => if idx3_dec c' c then ms' else k c') /\ (exists k0, built l' b d k0) /\ lat_regular l' = false.
Proof.
  intros V [k0 B] I F. unfold modify_cell.
  pose proof (modify_succeeds l b d k c (fun ms => ms) V I) as N. destruct (modifySpecificCellMolecules l c (fun ms => ms)) as [l1|] eqn:M1; [|congruence]. cbn [obind].
  destruct (modify_valid _ _ _ _ _ _ _ V M1) as (_&R1&V1). rewrite (v_cells _ _ _ _ V1 c I). cbn [obind].
  destruct (idx3_dec c c) as [_|X]; [|congruence]. rewrite F. cbn [obind].
  pose proof (modify_succeeds l1 b d _ c (fun _ => ms') V1 I) as N2. destruct (modifySpecificCellMolecules l1 c (fun _ => ms')) as [l2|] eqn:M2; [|congruence].
  destruct (modify_valid _ _ _ _ _ _ _ V1 M2) as (_&R2&V2). exists l2. split; [reflexivity|]. split; [|split; [|exact R2]].
  - eapply valid_ext; [exact V2|]. intros c' _. cbv beta. destruct (idx3_dec c' c); reflexivity.
  - eexists. eapply built_cell; [|exact M2]. eapply built_cell; [exact B|exact M1].
Qed.

(** *** Wrapping *)
Lemma wrap_terminates x : terminates_with (fun fuel => wrap_loops fuel x) (x - IZR (Rfl x))%R.
Proof.
  pose proof (Rfl_spec x) as F. set (f := Rfl x) in *. clearbody f. unfold wrap_loops.
  assert (LT : forall c, (c < 0)%R -> Rltb c 0 = true) by (intros c H; apply Rltb_true, H). assert (LTF : forall c, (0 <= c)%R -> Rltb c 0 = false) by (intros c H; apply Rltb_false, H).
  assert (LE : forall c, (1 <= c)%R -> Rleb 1 c = true) by (intros c H; apply Rleb_true, H). assert (LEF : forall c, (c < 1)%R -> Rleb 1 c = false) by (intros c H; apply Rleb_false, H).
  destruct (Z_le_gt_dec 0 f) as [P|P].
  - refine (terminates_bind (fun fuel => while_add fuel (fun c => Rleb 1 c) (-1) x) (fun fuel y => while_add fuel (fun c => Rltb c 0) 1 y) (x - IZR f)%R _ _ _).
    + apply (while_terminates' _ _ _ _ (Z.to_nat f)).
      * rewrite INR_IZR_INZ, Z2Nat.id by lia. ring.
      * intros j J. apply LE. assert (K : (Z.of_nat j <= f - 1)%Z) by lia. apply IZR_le in K. rewrite minus_IZR, <- INR_IZR_INZ in K. lra.
      * apply LEF. rewrite INR_IZR_INZ, Z2Nat.id by lia. lra.
    + apply (while_terminates' _ _ _ _ 0); [cbn; ring|lia|]. apply LTF. cbn. lra.
  - refine (terminates_bind (fun fuel => while_add fuel (fun c => Rleb 1 c) (-1) x) (fun fuel y => while_add fuel (fun c => Rltb c 0) 1 y) x _ _ _).
    + apply (while_terminates' _ _ _ _ 0); [cbn; ring|lia|]. apply LEF. assert (K : (f + 1 <= 0)%Z) by lia. apply IZR_le in K. rewrite plus_IZR in K. cbn. lra.
    + apply (while_terminates' _ _ _ _ (Z.to_nat (- f))).
      * rewrite INR_IZR_INZ, Z2Nat.id, opp_IZR by lia. ring.
      * intros j J. apply LT. assert (K : (Z.of_nat j <= - f - 1)%Z) by lia. apply IZR_le in K. rewrite minus_IZR, opp_IZR, <- INR_IZR_INZ in K. lra.
      * apply LTF. rewrite INR_IZR_INZ, Z2Nat.id, opp_IZR by lia. lra.
Qed.
Lemma terminate_together {A B} (F : nat -> A -> option B) (g : A -> B) l : (forall x, terminates_with (fun fuel => F fuel x) (g x)) ->
  exists n, forall fuel, n <= fuel -> forall x, In x l -> F fuel x = Some (g x).
Proof.
  intros H. induction l as [|x l [n IH]]; [exists 0; intros fuel _ x []|]. destruct (H x) as [m M]. exists (Nat.max n m). intros fuel L y [<-|I]; [apply M; lia|apply IH; [lia|exact I]].
Qed.

(** *** Columns of a cell *)
Definition key_dec (x y : R * R) : {x = y} + {x <> y}.
Proof. destruct x as [x1 x2], y as [y1 y2]. destruct (Req_EM_T x1 y1) as [->|N]; [|right; congruence]. destruct (Req_EM_T x2 y2) as [->|N]; [left; reflexivity|right; congruence]. Defined.
Fixpoint position (l : list (R * R)) (x : R * R) : nat := match l with [] => 0 | y :: l' => if key_dec y x then 0 else S (position l' x) end.
Lemma position_nth l n x : NoDup l -> nth_error l n = Some x -> position l x = n.
Proof.
  revert n. induction l as [|y l IH]; intros n D E; [destruct n; discriminate|]. inversion D as [|? ? N D']; subst. cbn. destruct n as [|n]; cbn in E.
  - injection E as ->. destruct (key_dec x x); [reflexivity|congruence].
  - destruct (key_dec y x) as [->|_]; [exfalso; apply N; eapply nth_error_In, E|]. f_equal. apply IH; assumption.
Qed.
Lemma position_in l x : In x l -> nth_error l (position l x) = Some x.
Proof. induction l as [|y l IH]; intros I; [destruct I|]. cbn. destruct (key_dec y x) as [->|N]; [reflexivity|]. destruct I as [I|I]; [congruence|apply IH, I]. Qed.
Definition the_column (a : axis) (cell : list shape) (s : shape) : nat := position (map fst (getColumnAssociation cell a)) (column_key a s).
Lemma column_key_same a s s' : column_key a s = column_key a s' <-> same_column a s s'.
Proof.
  unfold column_key, same_column. split.
  - intros E a' N. injection E as E1 E2. destruct a, a'; cbn in *; congruence.
  - intros H. f_equal; apply H; destruct a; discriminate.
Qed.
Lemma columns_bins a cell : distinct_columns a cell -> bins_of (column_key a) (combine (seq 0 (length cell)) cell) (getColumnAssociation cell a).
Proof.
  intros D. apply associate_bins. intros s s' I J. assert (EP : (0 < LAYER_EPSILON)%R) by (apply Rinv_0_lt_compat, pow_lt; lra).
  unfold column_near. rewrite andb_true_iff, !Rltb_true. split.
  - intros [L1 L2]. destruct (D s s' I J) as [E|(a'&N&E)]; [apply column_key_same, E|]. exfalso. unfold LAYER_EPSILON, column_key in *. cbn [fst snd] in *.
    destruct a, a'; cbn [axis_next] in *; try congruence; lra.
  - intros ->. rewrite !Rminus_diag_eq, Rabs_R0 by reflexivity. split; exact EP.
Qed.
Lemma column_iff a cell s s' : distinct_columns a cell -> In s cell -> In s' cell -> (the_column a cell s = the_column a cell s' <-> same_column a s s').
Proof.
  intros D I J. destruct (columns_bins a cell D) as (_&_&C).
  assert (K : forall t, In t cell -> nth_error (map fst (getColumnAssociation cell a)) (the_column a cell t) = Some (column_key a t)).
  { intros t T. apply position_in. apply In_nth_error in T as [i T]. apply (C (i, t)). apply combine_seq_in. rewrite Nat.sub_0_r. split; [lia|exact T]. }
  rewrite <- column_key_same. split; intros E.
  - pose proof (K s I) as A. pose proof (K s' J) as B. rewrite E in A. congruence.
  - unfold the_column. rewrite E. reflexivity.
Qed.
Lemma column_member a cell n key is' : distinct_columns a cell -> nth_error (getColumnAssociation cell a) n = Some (key, is') ->
  NoDup is' /\ forall j, In j is' <-> exists s, nth_error cell j = Some s /\ the_column a cell s = n.
Proof.
  intros D E. destruct (columns_bins a cell D) as (N&B&C). destruct (B key is' (nth_error_In _ _ E)) as (B1&_&B2). split; [exact B1|]. intros j. rewrite B2.
  assert (EN : nth_error (map fst (getColumnAssociation cell a)) n = Some key) by (rewrite nth_error_map, E; reflexivity).
  split; intros (s&I&K); exists s.
  - apply combine_seq_in in I as [_ I]. rewrite Nat.sub_0_r in I. split; [exact I|]. unfold the_column. rewrite K. apply position_nth; assumption.
  - split; [apply combine_seq_in; rewrite Nat.sub_0_r; split; [lia|exact I]|]. subst n. assert (J : In (j, s) (combine (seq 0 (length cell)) cell)) by (apply combine_seq_in; rewrite Nat.sub_0_r; split; [lia|exact I]).
    pose proof (position_in _ _ (C _ J)) as P. cbn [snd] in P. unfold the_column in EN. congruence.
Qed.
Lemma column_bound a cell s : distinct_columns a cell -> In s cell -> the_column a cell s < length (getColumnAssociation cell a).
Proof.
  intros D I. destruct (columns_bins a cell D) as (_&_&C). apply In_nth_error in I as [i I].
  assert (J : In (i, s) (combine (seq 0 (length cell)) cell)) by (apply combine_seq_in; rewrite Nat.sub_0_r; split; [lia|exact I]).
  pose proof (position_in _ _ (C _ J)) as P. rewrite <- (map_length fst). apply nth_error_Some. unfold the_column. cbn [snd] in P. congruence.
Qed.

(** *** The transformer *)
Definition shifted (a : axis) (x : R) (s : shape) : shape := Shape (vput (sh_pos s) a (vget (sh_pos s) a + x)%R) (sh_rot s).
Definition wrapped (a : axis) (x : R) (s : shape) : shape := Shape (vput (sh_pos s) a (vget (sh_pos s) a + x - IZR (Rfl (vget (sh_pos s) a + x)))%R) (sh_rot s).
Lemma shift_shape_terminates a x s : terminates_with (fun fuel => shift_shape fuel a x s) (wrapped a x s).
Proof.
  destruct (wrap_terminates (vget (sh_pos s) a + x)) as [n N]. exists n. intros fuel F. unfold shift_shape. rewrite (N fuel F). reflexivity.
Qed.
Section Columns.
Variables (a : axis) (cell : list shape) (shift : nat -> nat -> nat -> R) (b : box) (d : idx3).
Hypothesis distinct : distinct_columns a cell.
Notation a1 := (axis_next a).
Notation a2 := (axis_next (axis_next a)).
Notation columns := (getColumnAssociation cell a).
Definition amount (c : idx3) (n : nat) : R := shift (iget c a1) (iget c a2) n.
Variable fuel : nat.
Hypothesis enough : forall c n s, in_range c d -> n < length columns -> In s cell -> shift_shape fuel a (amount c n) s = Some (wrapped a (amount c n) s).
Notation task := (idx3 * nat)%type.
Definition task_dec (x y : task) : {x = y} + {x <> y} := ltac:(decide equality; [apply Nat.eq_dec|apply idx3_dec]).
Definition run (r : option lattice) (t : task) : option lattice :=
  l' <- r ;; modify_cell l' (fst t) (shift_indices fuel a (amount (fst t) (snd t)) (snd (nth (snd t) columns ((0%R, 0%R), [])))).
Definition state (done : list task) (k : idx3 -> list shape) : Prop :=
  forall c, in_range c d -> forall j, nth_error (k c) j = option_map (fun s => if in_dec task_dec (c, the_column a cell s) done then wrapped a (amount c (the_column a cell s)) s else s) (nth_error cell j).
Lemma shift_indices_changes x is' ms : shift_indices fuel a x is' ms = changes (fun s _ => shift_shape fuel a x s) (map (fun j => (j, 0)) is') (Some ms).
Proof.
  unfold shift_indices, changes. generalize (Some ms). induction is' as [|i is' IH]; intros r; [reflexivity|]. cbn [map fold_left fst snd]. apply IH.
Qed.
Lemma shift_some x is' ms : forall c, NoDup is' -> (forall j, In j is' -> exists s s', nth_error ms j = Some s /\ shift_shape fuel a x s = Some s') -> (forall j, In j is' -> nth_error c j = nth_error ms j) ->
  exists c', shift_indices fuel a x is' c = Some c' /\ forall j, nth_error c' j = if in_dec Nat.eq_dec j is' then match nth_error ms j with Some s => shift_shape fuel a x s | None => None end else nth_error c j.
Proof.
  induction is' as [|i is' IH]; intros c D H C; unfold shift_indices; cbn [fold_left].
  - exists c. split; [reflexivity|]. intros j. destruct (in_dec Nat.eq_dec j []) as [[]|]; reflexivity.
  - inversion D as [|? ? NI D']; subst. destruct (H i (or_introl eq_refl)) as (s&s'&S&E). cbn [obind].
    destruct (change_at_spec (shift_shape fuel a x) i c s s') as (c1&E1&N1); [rewrite C; [exact S|left; reflexivity]|exact E|]. rewrite E1. fold (shift_indices fuel a x is' c1).
    destruct (IH c1 D') as (c'&E'&N').
    + intros j J. apply H. right; exact J.
    + intros j J. rewrite N1. destruct (Nat.eqb_spec j i) as [->|_]; [contradiction|]. apply C. right; exact J.
    + exists c'. split; [exact E'|]. intros j. rewrite N', N1. destruct (in_dec Nat.eq_dec j is') as [J|J], (in_dec Nat.eq_dec j (i :: is')) as [J'|J'].
      * reflexivity.
      * exfalso. apply J'. right; exact J.
      * destruct J' as [<-|J']; [|contradiction]. rewrite Nat.eqb_refl, S. symmetry. exact E.
      * destruct (Nat.eqb_spec j i) as [->|_]; [|reflexivity]. exfalso. apply J'. left; reflexivity.
Qed.
Lemma run_all todo : forall done l k, valid l b d k -> (exists k0, built l b d k0) -> state done k -> NoDup (done ++ todo) -> (forall t, In t todo -> in_range (fst t) d /\ snd t < length columns) ->
  exists l' k', fold_left run todo (Some l) = Some l' /\ valid l' b d k' /\ (exists k0, built l' b d k0) /\ state (done ++ todo) k'.
Proof.
  induction todo as [|[c n] todo IH]; intros done l k V B S D T; cbn [fold_left].
  - exists l, k. rewrite app_nil_r. auto.
  - destruct (T (c, n) (or_introl eq_refl)) as [I NL]. cbn [fst snd] in I, NL.
    assert (NT : ~ In (c, n) done) by (intros X; apply (NoDup_remove_2 _ _ _ D), in_or_app; left; exact X).
    destruct (nth_error columns n) as [[key is']|] eqn:E; [|apply nth_error_None in E; lia].
    destruct (column_member a cell n key is' distinct E) as [D1 M].
    assert (ORIG : forall j, In j is' -> exists s, nth_error cell j = Some s /\ the_column a cell s = n /\ nth_error (k c) j = Some s).
    { intros j J. apply M in J as (s&X&Y). exists s. split; [exact X|]. split; [exact Y|]. rewrite (S c I j), X. cbn [option_map]. rewrite Y. destruct (in_dec task_dec (c, n) done); [contradiction|reflexivity]. }
    destruct (shift_some (amount c n) is' (k c) (k c) D1) as (ms'&ES&NS).
    + intros j J. destruct (ORIG j J) as (s&X&_&Z). exists s, (wrapped a (amount c n) s). split; [exact Z|]. apply enough; [exact I|exact NL|eapply nth_error_In, X].
    + reflexivity.
    + destruct (modify_cell_spec l b d k c (shift_indices fuel a (amount c n) is') ms' V B I ES) as (l1&E1&V1&B1&_).
      unfold run at 2. cbn [obind fst snd]. rewrite (nth_error_nth _ _ _ E). cbn [snd]. rewrite E1.
      replace (done ++ (c, n) :: todo) with ((done ++ [(c, n)]) ++ todo) in * by (rewrite <- app_assoc; reflexivity).
      apply (IH _ l1 _ V1 B1); [|exact D|intros t X; apply T; right; exact X].
      intros c' I' j. destruct (idx3_dec c' c) as [->|NC].
      * rewrite NS. destruct (in_dec Nat.eq_dec j is') as [J|J].
        -- destruct (ORIG j J) as (s&X&Y&Z). rewrite Z, X. cbn [option_map]. rewrite Y. destruct (in_dec task_dec (c, n) (done ++ [(c, n)])) as [_|Q]; [|exfalso; apply Q, in_or_app; right; left; reflexivity].
           apply enough; [exact I|exact NL|eapply nth_error_In, X].
        -- rewrite (S c I j). destruct (nth_error cell j) as [s|] eqn:X; [|reflexivity]. cbn [option_map].
           assert (the_column a cell s <> n) as Y by (intros Y; apply J, M; exists s; auto).
           destruct (in_dec task_dec (c, the_column a cell s) done) as [Q|Q], (in_dec task_dec (c, the_column a cell s) (done ++ [(c, n)])) as [Q'|Q']; try reflexivity; exfalso.
           ++ apply Q', in_or_app. left; exact Q.
           ++ apply in_app_or in Q' as [Q'|[Q'|[]]]; [contradiction|]. congruence.
      * rewrite (S c' I' j). destruct (nth_error cell j) as [s|] eqn:X; [|reflexivity]. cbn [option_map].
        destruct (in_dec task_dec (c', the_column a cell s) done) as [Q|Q], (in_dec task_dec (c', the_column a cell s) (done ++ [(c, n)])) as [Q'|Q']; try reflexivity; exfalso.
        -- apply Q', in_or_app. left; exact Q.
        -- apply in_app_or in Q' as [Q'|[Q'|[]]]; [contradiction|]. congruence.
Qed.
End Columns.
Section Tasks.
Variables (a : axis) (cell : list shape) (d : idx3).
Notation a1 := (axis_next a).
Notation a2 := (axis_next (axis_next a)).
Notation columns := (getColumnAssociation cell a).
Notation task := (idx3 * nat)%type.
Definition at_cell (i1 i2 i : nat) : idx3 := iset (iset (iset (I3 0 0 0) a1 i1) a2 i2) a i.
Definition tasks : list task :=
  flat_map (fun i1 => flat_map (fun i2 => flat_map (fun n => map (fun i => (at_cell i1 i2 i, n)) (seq 0 (iget d a))) (seq 0 (length columns))) (seq 0 (iget d a2))) (seq 0 (iget d a1)).
Lemma at_cell_get i1 i2 i : iget (at_cell i1 i2 i) a1 = i1 /\ iget (at_cell i1 i2 i) a2 = i2 /\ iget (at_cell i1 i2 i) a = i.
Proof. unfold at_cell. destruct a; cbn; auto. Qed.
Lemma at_cell_range i1 i2 i : in_range (at_cell i1 i2 i) d <-> i1 < iget d a1 /\ i2 < iget d a2 /\ i < iget d a.
Proof. unfold in_range, at_cell. destruct a; cbn; intuition. Qed.
Lemma at_cell_eta c : at_cell (iget c a1) (iget c a2) (iget c a) = c.
Proof. unfold at_cell. destruct a, c; reflexivity. Qed.
Lemma tasks_in c n : In (c, n) tasks <-> in_range c d /\ n < length columns.
Proof.
  unfold tasks. rewrite in_flat_map. split.
  - intros (i1&I1&H). apply in_flat_map in H as (i2&I2&H). apply in_flat_map in H as (m&Im&H). apply in_map_iff in H as (i&E&I). injection E as <- <-. apply in_seq in I1, I2, Im, I. split; [apply at_cell_range; lia|lia].
  - intros [R N]. rewrite <- (at_cell_eta c) in R. apply at_cell_range in R as (R1&R2&R3). exists (iget c a1). split; [apply in_seq; lia|]. apply in_flat_map. exists (iget c a2). split; [apply in_seq; lia|].
    apply in_flat_map. exists n. split; [apply in_seq; lia|]. apply in_map_iff. exists (iget c a). rewrite at_cell_eta. split; [reflexivity|apply in_seq; lia].
Qed.
Lemma tasks_nodup : NoDup tasks.
Proof.
  assert (G : forall i1 i2 (m : nat) x, In x (map (fun i => (at_cell i1 i2 i, m)) (seq 0 (iget d a))) -> iget (fst x) a1 = i1 /\ iget (fst x) a2 = i2 /\ snd x = m).
  { intros i1 i2 m x I. apply in_map_iff in I as (i&<-&_). cbn [fst snd]. destruct (at_cell_get i1 i2 i) as (A&B&_). auto. }
  unfold tasks. apply nodup_flat_map; [apply seq_NoDup| |].
  - intros i1 _. apply nodup_flat_map; [apply seq_NoDup| |].
    + intros i2 _. apply nodup_flat_map; [apply seq_NoDup| |].
      * intros m _. apply FinFun.Injective_map_NoDup; [|apply seq_NoDup]. intros i j E. injection E as E. apply (f_equal (fun c => iget c a)) in E.
        destruct (at_cell_get i1 i2 i) as (_&_&X), (at_cell_get i1 i2 j) as (_&_&Y). congruence.
      * intros m m' x _ _ I I'. apply G in I, I'. destruct I as (_&_&<-), I' as (_&_&<-). reflexivity.
    + intros i2 i2' x _ _ I I'. apply in_flat_map in I as (m&_&I), I' as (m'&_&I'). apply G in I, I'. destruct I as (_&<-&_), I' as (_&<-&_). reflexivity.
  - intros i1 i1' x _ _ I I'. apply in_flat_map in I as (i2&_&I), I' as (i2'&_&I'). apply in_flat_map in I as (m&_&I), I' as (m'&_&I'). apply G in I, I'. destruct I as (<-&_), I' as (<-&_). reflexivity.
Qed.
Lemma fold_flat_map {A B C} (f : A -> B -> A) (g : C -> list B) l : forall r, fold_left f (flat_map g l) r = fold_left (fun r x => fold_left f (g x) r) l r.
Proof. induction l as [|x l IH]; intros r; [reflexivity|]. cbn. rewrite fold_left_app. apply IH. Qed.
Lemma fold_map {A B C} (f : A -> B -> A) (g : C -> B) l : forall r, fold_left f (map g l) r = fold_left (fun r x => f r (g x)) l r.
Proof. induction l as [|x l IH]; intros r; [reflexivity|]. cbn. apply IH. Qed.
Lemma fold_ext_in {A B} (f g : A -> B -> A) l : (forall r x, In x l -> f r x = g r x) -> forall r, fold_left f l r = fold_left g l r.
Proof. induction l as [|x l IH]; intros H r; [reflexivity|]. cbn. rewrite H by (left; reflexivity). apply IH. intros; apply H; right; assumption. Qed.
Lemma combine_as_map {A} (l : list A) x0 : forall n, combine (seq n (length l)) l = map (fun i => (i, nth (i - n) l x0)) (seq n (length l)).
Proof.
  induction l as [|x l IH]; intros n; [reflexivity|]. cbn [length seq combine map]. rewrite Nat.sub_diag. f_equal. rewrite IH. apply map_ext_in. intros i I. apply in_seq in I.
  replace (i - n) with (S (i - S n)) by lia. reflexivity.
Qed.
Lemma columnar_tasks shift fuel l : lat_regular l = true -> isNormalized l = true -> nth_error (lat_cells l) 0 = Some cell -> lat_dims l = d -> columnar fuel shift a l = fold_left (run a cell shift fuel) tasks (Some l).
Proof.
  intros R N E D. unfold columnar. rewrite R, N, E, D. cbn [negb obind]. unfold tasks. rewrite fold_flat_map. apply fold_ext_in. intros r i1 _. rewrite fold_flat_map. apply fold_ext_in. intros r' i2 _.
  rewrite fold_flat_map, (combine_as_map columns ((0%R, 0%R), [])), fold_map. apply fold_ext_in. intros r'' n _. rewrite fold_map. apply fold_ext_in. intros [l'|] i _; [|reflexivity].
  unfold run. cbn [obind fst snd]. rewrite Nat.sub_0_r. unfold amount. destruct (at_cell_get i1 i2 i) as (->&->&_). reflexivity.
Qed.
End Tasks.
