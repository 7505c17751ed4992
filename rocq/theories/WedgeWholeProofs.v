From Coq Require Import Reals ZArith List Bool Arith Lia Lra Psatz.
From Verif Require Import TextModel GeomModel GeomProofs PbcModel SegErrorProofs GeoModel GeoSpec GeoProofs GeoShapesProofs ShapesModel XcModel XcSpec XcPrimProofs XcOpProofs XcMaxProofs XcBuildProofs VolSpec VolProofs BeadsProofs WedgeModel WedgeSpec WedgeProofs WedgePartProofs WedgeFlatProofs OptModel.
Import ListNotations.
Open Scope R_scope.

Lemma xc_traits_spec data (s : option vec) volume z1 z2 : s = None \/ s = Some (V3 1 0 0) ->
  exists ps, xc_traits data (Some (V3 0 0 1)) s vzero volume [(wbeg_name, V3 0 0 z1); (wend_name, V3 0 0 z2)] = Some (Geo data (Some (V3 0 0 1)) s vzero volume ps) /\ ends_at (Geo data (Some (V3 0 0 1)) s vzero volume ps) z1 z2.
Proof.
  intros S. exists [(wbeg_name, V3 0 0 z1); (wend_name, V3 0 0 z2)]. split.
  - unfold xc_traits. cbn [normalized_axis]. rewrite ez_unit. cbn [obind]. assert (E : normalized_axis s = Some s) by (destruct S as [->| ->]; cbn [normalized_axis]; rewrite ?ex_unit; reflexivity). rewrite E. reflexivity.
  - intros name v. rewrite (named_point_spec _ (fun _ _ => False) vzero [(wbeg_name, V3 0 0 z1); (wend_name, V3 0 0 z2)]); [| | |reflexivity].
    + unfold point_called. split.
      * intros [H|(_&[[]|[H|[H|[]]]])]; [left; exact H|injection H as <- <-; right; left; auto|injection H as <- <-; right; right; auto].
      * intros [H|[(->&->)|(->&->)]]; [left; exact H|right..]; (split; [discriminate|]); right; cbn [In]; auto.
    + change (NoDup [wbeg_name; wend_name]). apply NoDup_cons; [intros [H|[]]; discriminate H|]. apply NoDup_cons; [intros []|apply NoDup_nil].
    + intros n w. cbn [g_points]. tauto.
Qed.
Lemma one_part b g : describes g b -> made_of b [(g, vzero)].
Proof.
  intros D. exists [b]. split; [constructor; [exact D|constructor]|]. intros y. assert (P : placed b vzero mid y <-> b y) by (rewrite placed_at; replace (vsub y vzero) with y by (apply vec_ext; cbn; ring); reflexivity). split.
  - intros H. exists 0%nat, (g, vzero), b. cbn [nth_error snd]. repeat split; auto. apply P, H.
  - intros ([|i]&d&p&E1&E2&H); cbn [nth_error] in *; [|destruct i; discriminate]. injection E1 as <-. injection E2 as <-. apply P, H.
Qed.

(** *** Smooth wedges *)
Lemma smooth_xc_flat r0 r1 l : l = 0 -> smooth_xc r0 r1 l = None. Proof. intros ->. unfold smooth_xc. rewrite (proj2 (Rltb_false 0 0)) by lra. rewrite andb_false_r. reflexivity. Qed.
Lemma smooth_tie R0 r l n : Rabs (R0 - r) = l -> (2 <= n)%nat -> (alphas <- calculateRelativeSpherePositions R0 r l n ;; smooth_loop R0 r l ((- l + R0 - r) / 2) alphas) = None.
Proof.
  intros A N. unfold calculateRelativeSpherePositions. destruct n as [|[|n]]; [lia..|].
  destruct (Reqb R0 r) eqn:E1; [apply Reqb_true in E1|apply Reqb_false in E1].
  - assert (L : l = 0) by (rewrite <- A, E1, Rminus_diag_eq, Rabs_R0; reflexivity). cbn [obind grow map smooth_loop]. rewrite smooth_xc_flat by (rewrite L; ring). reflexivity.
  - destruct (Reqb (l + r - R0) 0) eqn:E2; [reflexivity|apply Reqb_false in E2]. assert (L : l = - (R0 - r)) by (revert A; unfold Rabs; destruct (Rcase_abs (R0 - r)); lra). assert (L0 : l <> 0) by lra.
    cbn [obind]. replace ((l - r + R0) / (l + r - R0)) with 0 by (rewrite L; field; lra).
    cbn [grow map]. set (t := last _ 0). cbn [smooth_loop]. replace (0 * 0 + 1) with 1 by ring. replace (0 * 1 + 1) with 1 by ring.
    rewrite (smooth_xc_flat _ _ ((1 / t - 1 / t) * l)) by ring. cbn [obind]. destruct (smooth_xc _ _ _); reflexivity.
Qed.
Lemma smooth_wedge_spec R0 r l n :
  ((exists g, smooth_wedge R0 r l n = Some g) <-> 0 < R0 /\ 0 < r /\ 0 < l /\ Rabs (R0 - r) <= l /\ ((2 <= n)%nat -> Rabs (R0 - r) < l)) /\
  forall g, smooth_wedge R0 r l n = Some g ->
    length (g_data g) = Nat.max 1 n /\ made_of (smooth_body R0 r l) (g_data g) /\ (exists c, forall d, In d (g_data g) -> xc_circumsphere (fst d) = c) /\
    volume (smooth_body R0 r l) (g_volume g) /\ g_primary g = Some (V3 0 0 1) /\ g_secondary g = None /\ g_origin g = vzero /\
    ends_at g ((- l + R0 - r) / 2) ((l + R0 - r) / 2).
Proof.
  assert (MAIN : 0 < R0 /\ 0 < r /\ 0 < l /\ Rabs (R0 - r) <= l /\ ((2 <= n)%nat -> Rabs (R0 - r) < l) -> exists data,
    (if Nat.leb n 1 then g <- smooth_xc R0 r l ;; Some [(g, vzero)] else alphas <- calculateRelativeSpherePositions R0 r l n ;; smooth_loop R0 r l ((- l + R0 - r) / 2) alphas) = Some data /\
    length data = Nat.max 1 n /\ made_of (smooth_body R0 r l) data /\ exists c, forall d, In d data -> xc_circumsphere (fst d) = c).
  { intros (A&B&L&D&E). destruct (Nat.leb_spec n 1) as [N|N].
    - destruct (proj2 (smooth_made R0 r l)) as (g&G); [auto|]. exists [(g, vzero)]. rewrite G. split; [reflexivity|]. split; [cbn [length]; lia|]. split; [apply one_part, smooth_describes; assumption|]. exists (xc_circumsphere g). intros d [<-|[]]. reflexivity.
    - destruct (positions_spec R0 r l n L ltac:(apply E; lia) ltac:(lia)) as (alphas&EA&LA&RA&LAST&m&M). rewrite EA. cbn [obind].
      destruct (smooth_loop_spec R0 r l A B L D alphas 0 RA ltac:(lra) ltac:(lra)) as (data&bodies&ED&F&LD&CI&UN). exists data. split; [exact ED|]. split; [rewrite LD, LA; lia|]. split.
      + exists bodies. split; [exact F|]. intros y. rewrite UN by (intros ->; cbn in LA; lia). rewrite LAST. rewrite smooth_tapered by assumption. reflexivity.
      + exists (m / 2). intros d I. apply In_nth_error in I. destruct I as (i&I). destruct (CI i d I) as (b&c&B1&B2&->). rewrite (M i b c B1 B2). reflexivity. }
  assert (ACC : forall g, smooth_wedge R0 r l n = Some g -> 0 < R0 /\ 0 < r /\ 0 < l /\ Rabs (R0 - r) <= l /\ ((2 <= n)%nat -> Rabs (R0 - r) < l)).
  { intros g. unfold smooth_wedge. destruct (Rltb 0 r) eqn:B; [apply Rltb_true in B|discriminate]. destruct (Rltb 0 R0) eqn:A; [apply Rltb_true in A|discriminate]. destruct (Rleb (Rabs (R0 - r)) l) eqn:D; [apply Rleb_true in D|discriminate]. cbn [andb]. intros H.
    destruct (Nat.leb_spec n 1) as [N|N].
    - destruct (smooth_xc R0 r l) as [x|] eqn:X; [|discriminate]. destruct (proj1 (smooth_made R0 r l) (ex_intro _ x X)) as (_&_&L). repeat split; auto. intros; lia.
    - destruct (Req_dec (Rabs (R0 - r)) l) as [T|T]; [rewrite smooth_tie in H by (auto; lia); discriminate|]. pose proof (Rabs_pos (R0 - r)). repeat split; auto; try intros; lra. }
  assert (OK : 0 < R0 /\ 0 < r /\ 0 < l /\ Rabs (R0 - r) <= l /\ ((2 <= n)%nat -> Rabs (R0 - r) < l) -> exists data ps, smooth_wedge R0 r l n = Some (Geo data (Some (V3 0 0 1)) None vzero (smooth_volume R0 r l) ps) /\
    ends_at (Geo data (Some (V3 0 0 1)) None vzero (smooth_volume R0 r l) ps) ((- l + R0 - r) / 2) ((l + R0 - r) / 2) /\ length data = Nat.max 1 n /\ made_of (smooth_body R0 r l) data /\ exists c, forall d, In d data -> xc_circumsphere (fst d) = c).
  { intros H. destruct (MAIN H) as (data&ED&P). destruct H as (A&B&L&D&_). destruct (xc_traits_spec data None (smooth_volume R0 r l) ((- l + R0 - r) / 2) ((l + R0 - r) / 2) ltac:(auto)) as (ps&E1&E2). exists data, ps. split; [|auto].
    unfold smooth_wedge. rewrite !(proj2 (Rltb_true _ _)) by assumption. rewrite (proj2 (Rleb_true _ _)) by assumption. cbn [andb]. rewrite ED. cbn [obind]. exact E1. }
  split; [split|].
  - intros (g&G). apply (ACC g G).
  - intros H. destruct (OK H) as (data&ps&E&_). eauto.
  - intros g G. destruct (OK (ACC g G)) as (data&ps&E&EN&LD&MD&CI). rewrite E in G. injection G as <-. cbn [g_data g_volume g_primary g_secondary g_origin]. destruct (ACC _ E) as (A&B&L&D&_). repeat split; auto; try (apply EN; assumption). apply smooth_volume_spec; assumption.
Qed.

(** *** Polyhedral wedges *)
Lemma polyhedral_centres n : forall i axTop ayTop len dl dx dy data, polyhedral_loop n i axTop ayTop len dl dx dy = Some data -> forall j d, nth_error data j = Some d -> snd d = V3 0 0 (len / 2 - (INR (i + j) + 1 / 2) * dl).
Proof.
  induction n as [|n IH]; intros i axTop ayTop len dl dx dy data; cbn [polyhedral_loop]; [intros [= <-] [|j]; discriminate|]. destruct (polyhedral_xc _ _ _ _ _); [|discriminate]. cbn [obind]. destruct (polyhedral_loop n (S i) _ _ _ _ _ _) as [o|] eqn:E; [|discriminate]. cbn [obind]. intros [= <-] [|j] d; cbn [nth_error].
  - intros [= <-]. rewrite Nat.add_0_r. reflexivity.
  - intros H. rewrite (IH _ _ _ _ _ _ _ _ E j d H). replace (S i + j)%nat with (i + S j)%nat by lia. reflexivity.
Qed.
Lemma polyhedral_wedge_spec axB ayB axT ayT len n : 0 <= axB -> 0 <= ayB -> 0 <= axT -> 0 <= ayT ->
  ((exists g, polyhedral_wedge axB ayB axT ayT len n = Some g) <-> (0 < axT /\ 0 < ayB \/ 0 < ayT /\ 0 < axB) /\ 0 < len) /\
  forall g, polyhedral_wedge axB ayB axT ayT len n = Some g ->
    length (g_data g) = Nat.max 1 n /\ made_of (polyhedral_body axB ayB axT ayT len) (g_data g) /\
    (forall i d, nth_error (g_data g) i = Some d -> snd d = V3 0 0 (len / 2 - (INR i + 1 / 2) * (len / INR (Nat.max 1 n)))) /\
    volume (polyhedral_body axB ayB axT ayT len) (g_volume g) /\ g_primary g = Some (V3 0 0 1) /\ g_secondary g = Some (V3 1 0 0) /\ g_origin g = vzero /\
    ends_at g (- len / 2) (len / 2).
Proof.
  intros A B C D. set (ok := (0 < axT /\ 0 < ayB \/ 0 < ayT /\ 0 < axB) /\ 0 < len).
  assert (CH : ((Rltb 0 axT && Rltb 0 ayB || Rltb 0 ayT && Rltb 0 axB) && Rltb 0 len)%bool = true <-> ok) by (unfold ok; rewrite andb_true_iff, orb_true_iff, !andb_true_iff, !Rltb_true; reflexivity).
  assert (OK : ok -> exists data ps, polyhedral_wedge axB ayB axT ayT len n = Some (Geo data (Some (V3 0 0 1)) (Some (V3 1 0 0)) vzero (polyhedral_volume axB ayB axT ayT len) ps) /\
    ends_at (Geo data (Some (V3 0 0 1)) (Some (V3 1 0 0)) vzero (polyhedral_volume axB ayB axT ayT len) ps) (- len / 2) (len / 2) /\ length data = Nat.max 1 n /\ made_of (polyhedral_body axB ayB axT ayT len) data /\
    forall i d, nth_error data i = Some d -> snd d = V3 0 0 (len / 2 - (INR i + 1 / 2) * (len / INR (Nat.max 1 n)))).
  { intros K. assert (K' := K). destruct K' as (H&L). assert (exists data, (if Nat.leb n 1 then g <- polyhedral_xc axB ayB axT ayT len ;; Some [(g, vzero)]
             else let dl := len / INR n in let dy := (ayB - ayT) / INR n in let dx := (axB - axT) / INR n in polyhedral_loop n 0 axT ayT len dl dx dy) = Some data /\
      length data = Nat.max 1 n /\ made_of (polyhedral_body axB ayB axT ayT len) data /\ forall i d, nth_error data i = Some d -> snd d = V3 0 0 (len / 2 - (INR i + 1 / 2) * (len / INR (Nat.max 1 n)))) as (data&ED&P).
    { destruct (Nat.leb_spec n 1) as [N|N].
      - destruct (proj2 (polyhedral_made axB ayB axT ayT len)) as (g&G); [exact K|]. exists [(g, vzero)]. rewrite G. split; [reflexivity|]. split; [cbn [length]; lia|]. split; [apply one_part, polyhedral_describes; assumption|].
        intros [|[|i]] d X; cbn [nth_error] in X; [|discriminate..]. injection X as <-. replace (Nat.max 1 n) with 1%nat by lia. cbn [INR snd]. apply vec_ext; cbn; field.
      - cbv zeta. destruct (polyhedral_loop_spec axB ayB axT ayT len n A B C D H L ltac:(lia) n 0 ltac:(lia)) as (data&bodies&ED&F&LD&UN). exists data. split; [exact ED|]. split; [rewrite LD; lia|]. split.
        + exists bodies. split; [exact F|]. intros y. rewrite UN by lia. unfold polyhedral_body. rewrite frustum_hull by assumption. unfold frustum. cbn [INR]. replace (1 - 0 / INR n) with 1 by (unfold Rdiv; ring). reflexivity.
        + intros i d X. rewrite (polyhedral_centres _ _ _ _ _ _ _ _ _ ED i d X). replace (Nat.max 1 n) with n by lia. reflexivity. }
    destruct (xc_traits_spec data (Some (V3 1 0 0)) (polyhedral_volume axB ayB axT ayT len) (- len / 2) (len / 2) ltac:(auto)) as (ps&E1&E2). exists data, ps. split; [|auto].
    unfold polyhedral_wedge. rewrite (proj2 CH K). cbv zeta in ED |- *. rewrite ED. cbn [obind]. exact E1. }
  assert (ACC : forall g, polyhedral_wedge axB ayB axT ayT len n = Some g -> ok) by (intros g; unfold polyhedral_wedge; destruct (_ && Rltb 0 len)%bool; [intros _; apply CH; reflexivity|discriminate]).
  split; [split|].
  - intros (g&G). apply (ACC g G).
  - intros H. destruct (OK H) as (data&ps&E&_). eauto.
  - intros g G. destruct (OK (ACC g G)) as (data&ps&E&EN&LD&MD&CI). rewrite E in G. injection G as <-. cbn [g_data g_volume g_primary g_secondary g_origin]. destruct (ACC _ E) as (_&L). repeat split; auto; try (apply EN; assumption). apply polyhedral_volume_spec; assumption.
Qed.
(** A negative side is accepted. *)
Lemma polyhedral_negative : exists g x, polyhedral_wedge 1 1 1 (-10) 1 0 = Some g /\ g_volume g < 0 /\ g_data g = [(x, vzero)] /\ xc_insphere x < 0.
Proof.
  unfold polyhedral_wedge, polyhedral_xc. rewrite !(proj2 (Rltb_true 0 1)) by lra. cbn [andb orb Nat.leb obind].
  destruct (xc_traits_spec [(XC (fun n => Some (polyhedral_support (V3 (1 / 2) (-10 / 2) (1 / 2)) (V3 (1 / 2) (1 / 2) (-(1) / 2)) n)) vzero (fmax (vnorm (V3 (1 / 2) (-10 / 2) (1 / 2))) (vnorm (V3 (1 / 2) (1 / 2) (-(1) / 2)))) (fmin (fmin (fmin 1 (-10)) (fmin 1 1)) 1 / 2), vzero)]
    (Some (V3 1 0 0)) (polyhedral_volume 1 1 1 (-10) 1) (-(1) / 2) (1 / 2) ltac:(auto)) as (ps&E&_). eexists _, _. split; [exact E|]. cbn [g_volume g_data]. split; [unfold polyhedral_volume; lra|]. split; [reflexivity|]. cbn [xc_insphere].
  pose proof (fmin_le (fmin (fmin 1 (-10)) (fmin 1 1)) 1). pose proof (fmin_le (fmin 1 (-10)) (fmin 1 1)). pose proof (fmin_le 1 (-10)). lra.
Qed.
