From Coq Require Import Reals ZArith List Bool Arith Lia Lra Psatz.
From Coquelicot Require Import Coquelicot.
From Verif Require Import TextModel GeomModel GeomProofs PbcModel SegErrorProofs GeoModel GeoProofs GeoShapesProofs ShapesModel XcModel XcSpec XcPrimProofs XcOpProofs XcMaxProofs XcBuildProofs VolSpec VolProofs BeadsProofs WedgeModel WedgeSpec WedgeProofs OptModel.
Import ListNotations.
Open Scope R_scope.

Lemma whole_shift h v s : whole h v -> whole (fun z => h (z - s)) v.
Proof.
  intros (B&P&Z&I). exists (B + Rabs s). pose proof (Rabs_pos s). split; [lra|]. split.
  - intros z Q. apply Z. pose proof (Rabs_triang (z - s) s) as T. replace (z - s + s) with z in T by ring. lra.
  - intros a c A C. pose proof (Rle_abs s). pose proof (Rle_abs (- s)) as S'. rewrite Rabs_Ropp in S'.
    pose proof (is_RInt_comp_lin h 1 (- s) a c v) as K. assert (J : is_RInt h (1 * a + - s) (1 * c + - s) v) by (apply I; lra). specialize (K J). revert K. apply is_RInt_ext. intros z _. change (1 * h (1 * z + - s) = h (z - s)). rewrite Rmult_1_l. f_equal. ring.
Qed.
Lemma vz_norm y : Rabs (vz y) <= vnorm y.
Proof. rewrite <- sqrt_Rsqr_abs. unfold vnorm. apply sqrt_le_1_alt. unfold vnorm2, vdot, Rsqr. nra. Qed.
Lemma tapered_section z0 r0 z1 r1 x y z : 0 < r0 -> 0 < r1 -> tapered z0 r0 z1 r1 (V3 x y z) <-> exists k, 0 <= k <= 1 /\ x ^ 2 + y ^ 2 <= (r0 - k * (r0 - r1)) ^ 2 - (z - z0 - k * (z1 - z0)) ^ 2.
Proof.
  intros P Q. unfold tapered. split; intros (k&K&H); exists k; (split; [exact K|]).
  - apply norm_bound in H; [|nra]. unfold vnorm2, vdot in H. cbn [vx vy vz vsub] in H. nra.
  - apply norm_bound; [nra|]. unfold vnorm2, vdot. cbn [vx vy vz vsub]. nra.
Qed.
Lemma inner_top r0 l z q : 0 < l -> 0 < r0 - l -> 0 <= q -> (exists k, 0 <= k <= 1 /\ q <= (r0 - k * l) ^ 2 - (z - k * l) ^ 2) <-> q <= VolProofs.sq (0, r0) z.
Proof.
  intros L P Q. unfold VolProofs.sq. cbn [fst snd]. split; [intros (k&K&H)|intros H; exists 0; split; [lra|nra]]. replace ((r0 - k * l) ^ 2 - (z - k * l) ^ 2) with ((r0 - z) * (r0 + z - 2 * (k * l))) in H by ring.
  assert (0 <= k * l <= l) by nra. destruct (Rle_or_lt z r0); [nra|]. exfalso. assert (0 < (z - r0) * (r0 + z - 2 * (k * l))) by (apply Rmult_lt_0_compat; lra). nra.
Qed.
Lemma inner_bottom r0 l z q : 0 < l -> 0 < r0 -> 0 <= q -> (exists k, 0 <= k <= 1 /\ q <= (r0 - k * - l) ^ 2 - (z - k * l) ^ 2) <-> q <= VolProofs.sq (l, r0 + l) z.
Proof.
  intros L P Q. unfold VolProofs.sq. cbn [fst snd]. split; [intros (k&K&H)|intros H; exists 1; split; [lra|nra]]. replace ((r0 - k * - l) ^ 2 - (z - k * l) ^ 2) with ((r0 + z) * (r0 - z + 2 * (k * l))) in H by ring.
  assert (0 <= k * l <= l) by nra. destruct (Rle_or_lt (- r0) z).
  - replace ((r0 + l) ^ 2 - (z - l) ^ 2) with ((r0 + z) * (r0 - z + 2 * l)) by ring. nra.
  - exfalso. assert (0 < (- (r0 + z)) * (r0 - z + 2 * (k * l))) by (apply Rmult_lt_0_compat; lra). nra.
Qed.
Lemma smooth_volume_spec r0 r1 l : 0 < r0 -> 0 < r1 -> 0 < l -> Rabs (r0 - r1) <= l -> volume (smooth_body r0 r1 l) (smooth_volume r0 r1 l).
Proof.
  intros P Q L A. destruct (proj2 (smooth_made r0 r1 l)) as (g&G); [auto|]. destruct (smooth_describes _ _ _ _ A G) as (_&CO&_).
  set (z0 := (- l + r0 - r1) / 2). set (e := (r0 - r1) / l). assert (EL : e * l = r0 - r1) by (unfold e; field; lra).
  assert (SV : smooth_volume r0 r1 l = PI * (l / 3 * (r0 * r0 + r0 * r1 + r1 * r1) * (1 + e * e) + 2 / 3 * (r0 ^ 3 + r1 ^ 3))).
  { unfold smooth_volume. replace (if Reqb r0 r1 then 0 else (r0 - r1) / l) with e; [field|]. unfold e. destruct (Reqb r0 r1) eqn:E; [apply Reqb_true in E; rewrite E; field; lra|reflexivity]. }
  rewrite SV. assert (BD : forall y, smooth_body r0 r1 l y -> Rabs (vz y) <= xc_circumsphere g) by (intros y Y; eapply Rle_trans; [apply vz_norm|apply CO, Y]).
  assert (IN : forall x y z, smooth_body r0 r1 l (V3 x y z) <-> exists k, 0 <= k <= 1 /\ x ^ 2 + y ^ 2 <= (r0 - k * (r0 - r1)) ^ 2 - (z - z0 - k * l) ^ 2).
  { intros x y z. rewrite (smooth_tapered r0 r1 l _ P Q), (tapered_section _ _ _ _ _ _ _ P Q). fold z0. replace ((l + r0 - r1) / 2 - z0) with l by (unfold z0; field). reflexivity. }
  assert (NN : forall x y : R, 0 <= x ^ 2 + y ^ 2) by (intros; nra).
  assert (D : r0 - r1 = l \/ r0 - r1 = - l \/ - l < r0 - r1 < l). { unfold Rabs in A. destruct (Rcase_abs (r0 - r1)); lra. }
  destruct D as [D|[D|D]].
  - apply (whole_volume _ _ (fun z => PI * cut (0, r0) (z - z0)) _ BD).
    + intros z. apply section_disk. intros x y. rewrite IN, D. apply inner_top; auto. lra.
    + apply whole_scal. apply (whole_shift (cut (0, r0))). apply (whole_eq _ _ _ (ball_int (0, r0) P)). cbn [snd]. assert (e = 1) as -> by (unfold e; rewrite D; field; lra). replace r1 with (r0 - l) by lra. field.
  - apply (whole_volume _ _ (fun z => PI * cut (l, r0 + l) (z - z0)) _ BD).
    + intros z. apply section_disk. intros x y. rewrite IN, D. apply inner_bottom; auto.
    + apply whole_scal. apply (whole_shift (cut (l, r0 + l))). assert (P' : 0 < snd (l, r0 + l)) by (cbn; lra). apply (whole_eq _ _ _ (ball_int (l, r0 + l) P')). cbn [snd]. assert (e = -1) as -> by (unfold e; rewrite D; field; lra). replace r1 with (r0 + l) by lra. field.
  - assert (E : -1 < e < 1). { unfold e. split; apply Rmult_lt_reg_r with l; auto; unfold Rdiv; rewrite Rmult_assoc, Rinv_l by lra; lra. }
    apply (whole_volume _ _ (fun z => PI * Rmax 0 (profile r0 e l (z - z0))) _ BD).
    + intros z. apply section_disk. intros x y. rewrite IN, <- EL. apply profile_spec; auto. lra.
    + apply whole_scal. apply (whole_shift (fun z => Rmax 0 (profile r0 e l z))). replace r1 with (r0 - e * l) by lra. apply profile_int; auto. lra.
Qed.

(** *** The parts of a smooth wedge *)
Inductive rising : list R -> Prop :=
| ri_one : forall a, rising [a]
| ri_cons : forall a b l, a < b -> rising (b :: l) -> rising (a :: b :: l).
Lemma rising_last a l : rising (a :: l) -> a <= last (a :: l) 0.
Proof. revert a. induction l as [|b l IH]; intros a H; [cbn; lra|]. inversion H; subst. change (last (a :: b :: l) 0) with (last (b :: l) 0). specialize (IH b ltac:(assumption)). lra. Qed.
Definition ball_at (z0 r0 z1 r1 k : R) : body := fun y => vnorm (vsub y (V3 0 0 ((1 - k) * z0 + k * z1))) <= (1 - k) * r0 + k * r1.
Lemma ex_parts (data : list (xc * vec)) (bodies : list body) d p y : (exists i d' p', nth_error (d :: data) i = Some d' /\ nth_error (p :: bodies) i = Some p' /\ placed p' (snd d') mid y) <->
  placed p (snd d) mid y \/ exists i d' p', nth_error data i = Some d' /\ nth_error bodies i = Some p' /\ placed p' (snd d') mid y.
Proof.
  split.
  - intros ([|i]&d'&p'&D&Q&H); cbn [nth_error] in *; [injection D as <-; injection Q as <-; left; exact H|right; exists i, d', p'; auto].
  - intros [H|(i&d'&p'&D&Q&H)]; [exists 0%nat, d, p; auto|exists (S i), d', p'; auto].
Qed.
Lemma smooth_loop_spec r0 r1 l : 0 < r0 -> 0 < r1 -> 0 < l -> Rabs (r0 - r1) <= l -> let z0 := (- l + r0 - r1) / 2 in let z1 := (l + r0 - r1) / 2 in
  forall alphas a, rising (a :: alphas) -> 0 <= a -> last (a :: alphas) 0 <= 1 ->
  exists data bodies, smooth_loop r0 r1 l z0 (a :: alphas) = Some data /\ Forall2 (fun d p => describes (fst d) p) data bodies /\ length data = length alphas /\
    (forall i d, nth_error data i = Some d -> exists b c, nth_error (a :: alphas) i = Some b /\ nth_error (a :: alphas) (S i) = Some c /\ xc_circumsphere (fst d) = (l * (c - b) + 2 * r0 - (b + c) * (r0 - r1)) / 2) /\
    (alphas <> [] -> forall y, (exists i d p, nth_error data i = Some d /\ nth_error bodies i = Some p /\ placed p (snd d) mid y) <-> exists k, a <= k <= last (a :: alphas) 0 /\ ball_at z0 r0 z1 r1 k y).
Proof.
  intros P Q L A z0 z1. induction alphas as [|b alphas IH]; intros a RI A0 A1.
  - exists [], []. split; [reflexivity|]. split; [constructor|]. split; [reflexivity|]. split; [intros [|i]; discriminate|congruence].
  - inversion RI as [|? ? ? AB RI']; subst. change (last (a :: b :: alphas) 0) with (last (b :: alphas) 0) in *. pose proof (rising_last _ _ RI') as BL. destruct (IH b RI' ltac:(lra) A1) as (data&bodies&E&F&LE&CI&UN).
    pose proof (Rle_abs (r0 - r1)) as B1. pose proof (Rle_abs (- (r0 - r1))) as B2. rewrite Rabs_Ropp in B2.
    assert (PA : 0 < a * r1 + (1 - a) * r0) by nra. assert (PB : 0 < b * r1 + (1 - b) * r0) by nra. assert (PL : 0 < (b - a) * l) by nra.
    destruct (proj2 (smooth_made (a * r1 + (1 - a) * r0) (b * r1 + (1 - b) * r0) ((b - a) * l))) as (g&G); [auto|].
    assert (DG : describes g (smooth_body (a * r1 + (1 - a) * r0) (b * r1 + (1 - b) * r0) ((b - a) * l))).
    { apply smooth_describes; [|exact G]. replace (a * r1 + (1 - a) * r0 - (b * r1 + (1 - b) * r0)) with ((b - a) * (r0 - r1)) by ring. rewrite Rabs_mult, (Rabs_pos_eq (b - a)) by lra. nra. }
    set (h := z0 + l * (a + b) / 2 - (a * r1 + (1 - a) * r0 - (b * r1 + (1 - b) * r0)) / 2).
    exists ((g, V3 0 0 h) :: data), (smooth_body (a * r1 + (1 - a) * r0) (b * r1 + (1 - b) * r0) ((b - a) * l) :: bodies). split; [|split; [|split; [|split]]].
    + cbn [smooth_loop] in *. rewrite G. cbn [obind]. rewrite E. cbn [obind]. reflexivity.
    + constructor; auto.
    + cbn [length]. congruence.
    + intros [|i] d; cbn [nth_error].
      * intros [= <-]. exists a, b. repeat split; auto. cbn [fst]. revert G. unfold smooth_xc. destruct (_ && _)%bool; [|discriminate]. intros [= <-]. cbn [xc_circumsphere]. field.
      * intros D. destruct (CI i d D) as (b'&c'&X&Y&Z). exists b', c'. auto.
    + intros _ y. rewrite ex_parts. cbn [snd]. rewrite placed_at, (smooth_tapered _ _ _ _ PA PB), tapered_lift.
      replace ((- ((b - a) * l) + (a * r1 + (1 - a) * r0) - (b * r1 + (1 - b) * r0)) / 2 + h) with ((1 - a) * z0 + a * z1) by (unfold h, z0, z1; field).
      replace (((b - a) * l + (a * r1 + (1 - a) * r0) - (b * r1 + (1 - b) * r0)) / 2 + h) with ((1 - b) * z0 + b * z1) by (unfold h, z0, z1; field).
      replace (a * r1 + (1 - a) * r0) with ((1 - a) * r0 + a * r1) by ring. replace (b * r1 + (1 - b) * r0) with ((1 - b) * r0 + b * r1) by ring. rewrite tapered_part by lra. fold (ball_at z0 r0 z1 r1).
      destruct alphas as [|c alphas].
      * assert (data = []) as -> by (destruct data; [reflexivity|discriminate LE]). change (last [b] 0) with b. split; [intros [H|([|i]&?&?&X&_)]; [exact H|discriminate..]|intros H; left; exact H].
      * rewrite UN by discriminate. split.
        -- intros [(k&K&H)|(k&K&H)]; exists k; (split; [lra|exact H]).
        -- intros (k&K&H). destruct (Rle_or_lt k b); [left|right]; exists k; (split; [lra|exact H]).
Qed.
Lemma grow_length a n : forall b, length (grow a n b) = n. Proof. induction n; intros; cbn; [reflexivity|f_equal; auto]. Qed.
Lemma grow_rising a n : 0 < a -> forall b, 0 < a * b + 1 - b -> rising (b :: grow a n b).
Proof. intros A. induction n as [|n IH]; intros b B; [constructor|]. cbn [grow]. constructor; [lra|]. apply IH. nra. Qed.
Lemma grow_next a n : forall b i x y, nth_error (b :: grow a n b) i = Some x -> nth_error (b :: grow a n b) (S i) = Some y -> y = a * x + 1.
Proof.
  induction n as [|n IH]; intros b i x y; [destruct i as [|[|i]]; discriminate|]. cbn [grow]. destruct i as [|i]; cbn [nth_error].
  - intros [= <-] [= <-]. reflexivity.
  - apply IH.
Qed.
Lemma rising_scale k l : 0 < k -> rising l -> rising (map (fun x => x / k) l).
Proof. intros K. induction 1 as [|a b l AB _ IH]; cbn [map] in *; constructor; auto. unfold Rdiv. apply Rmult_lt_compat_r; [apply Rinv_0_lt_compat; lra|exact AB]. Qed.
Lemma last_map (f : R -> R) l d : l <> [] -> last (map f l) (f d) = f (last l d).
Proof. induction l as [|a l IH]; [congruence|]. intros _. destruct l as [|b l]; [reflexivity|]. change (last (map f (b :: l)) (f d) = f (last (b :: l) d)). apply IH. discriminate. Qed.
Lemma last_any {A} (l : list A) d d' : l <> [] -> last l d = last l d'.
Proof. induction l as [|a l IH]; [congruence|]. intros _. destruct l as [|b l]; [reflexivity|]. change (last (b :: l) d = last (b :: l) d'). apply IH. discriminate. Qed.
Lemma positions_spec r0 r1 l n : 0 < l -> Rabs (r0 - r1) < l -> (1 <= n)%nat ->
  exists alphas, calculateRelativeSpherePositions r0 r1 l n = Some (0 :: alphas) /\ length alphas = n /\ rising (0 :: alphas) /\ last (0 :: alphas) 0 = 1 /\
    exists m, forall i b c, nth_error (0 :: alphas) i = Some b -> nth_error (0 :: alphas) (S i) = Some c -> l * (c - b) + 2 * r0 - (b + c) * (r0 - r1) = m.
Proof.
  intros L A N. pose proof (Rabs_pos (r0 - r1)). pose proof (Rle_abs (r0 - r1)) as B1. pose proof (Rle_abs (- (r0 - r1))) as B2. rewrite Rabs_Ropp in B2.
  assert (exists a, (if Reqb r0 r1 then Some 1 else if Reqb (l + r1 - r0) 0 then None else Some ((l - r1 + r0) / (l + r1 - r0))) = Some a /\ 0 < a /\ (l - (r0 - r1)) * a = l + (r0 - r1)) as (a&E&AP&AE).
  { destruct (Reqb r0 r1) eqn:E1; [apply Reqb_true in E1; exists 1; repeat split; lra|]. rewrite (proj2 (Reqb_false _ _)) by lra. eexists. split; [reflexivity|]. split; [apply Rdiv_lt_0_compat; lra|field; lra]. }
  unfold calculateRelativeSpherePositions. rewrite E. cbn [obind]. set (vs := 0 :: grow a n 0).
  assert (RV : rising vs) by (apply grow_rising; lra). set (t := last vs 0).
  assert (TP : 0 < t). { unfold t, vs. destruct n as [|n]; [lia|]. cbn [grow]. change (last (0 :: (a * 0 + 1) :: grow a n (a * 0 + 1)) 0) with (last ((a * 0 + 1) :: grow a n (a * 0 + 1)) 0). assert (RR : rising ((a * 0 + 1) :: grow a n (a * 0 + 1))) by (inversion RV; assumption). pose proof (rising_last _ _ RR). lra. }
  exists (map (fun x => x / t) (grow a n 0)). assert (MV : map (fun x => x / t) vs = 0 :: map (fun x => x / t) (grow a n 0)) by (unfold vs; cbn [map]; f_equal; unfold Rdiv; ring). rewrite <- MV. split; [reflexivity|]. split; [rewrite map_length; apply grow_length|]. split; [apply rising_scale; assumption|]. split.
  - rewrite (last_any _ _ (0 / t)) by discriminate. rewrite (last_map (fun x => x / t)) by discriminate. fold t. field. lra.
  - exists (2 * r0 + (l - (r0 - r1)) / t). intros i b c. rewrite !nth_error_map. destruct (nth_error vs i) as [x|] eqn:X; [|discriminate]. destruct (nth_error vs (S i)) as [y|] eqn:Y; [|discriminate]. cbn [option_map]. intros [= <-] [= <-]. rewrite (grow_next a n 0 i x y X Y).
      transitivity (2 * r0 + (l * ((a - 1) * x + 1) - (r0 - r1) * ((a + 1) * x + 1)) / t); [field; lra|]. f_equal. f_equal. replace (l * ((a - 1) * x + 1) - (r0 - r1) * ((a + 1) * x + 1)) with (((l - (r0 - r1)) * a - (l + (r0 - r1))) * x + (l - (r0 - r1))) by ring. rewrite AE. ring.
Qed.
