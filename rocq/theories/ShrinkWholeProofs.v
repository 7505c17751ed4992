From Coq Require Import ZArith Reals List Bool Arith Permutation Sorting.Sorted Lra Lia Psatz.
From Verif Require Import TextModel GeomModel GeomProofs BoxModel BoxSpec BoxProofs PbcModel PbcSpec LatticeModel LatticeSpec LatticeProofs LatticeNormProofs PackModel RotModel TransModel TransSpec TransProofs DistModel ShrinkModel ShrinkSpec ShrinkProofs ShrinkCellProofs ShrinkLayerProofs.
Import ListNotations.
Local Open Scope R_scope.

Section Whole.
Variables (hard : bool) (range : R) (overlaps : box -> list shape -> bool).
Hypothesis range_pos : 0 < range.
Lemma layer_spec l b d k a spacing cell zs : built l b d k -> k (I3 0 0 0) = cell -> distinct_layers a cell -> layer_coordinates a cell zs ->
  let h := box_height b a in let m := length zs in
  exists lb r, scaled b (V3 (INR (ix d)) (INR (iy d)) (INR (iz d))) lb /\ terminates_with (fun fuel => layer_optimization hard range overlaps fuel a spacing l) r /\
  match r with
  | Value l' => hard = true /\ lat_regular l = true /\ (forall s, In s cell -> in_unit s) /\ ~ crystal_overlaps overlaps b d cell /\ (forall a', margin * range < box_height lb a') /\
      exists z0 rest ys f s0 s1 b' cell' ws, zs = z0 :: rest /\ compressed (fun ys => crystal_overlaps overlaps b d (relayered a zs ys cell)) [z0] z0 rest ys /\
        cell_overlaps overlaps b d a zs ys cell (least_factor range lb a) /\ touching (cell_overlaps overlaps b d a zs ys cell) (least_factor range lb a) f /\ 0 < f * h + INR m * spacing /\
        nth_error cell 0 = Some s0 /\ nth_error cell (length cell - 1) = Some s1 /\ ws = spaced h f spacing m 0 ys /\ length ws = m /\
        (let w s := nth (layers_below zs (vget (sh_pos s) a)) ws 0 in
         Forall2 wrapped (relayered a zs (map (fun w' => w' + (1/2 - (w s0 + w s1) / 2)) ws) cell) cell') /\
        built l' b' d (fun _ => cell') /\ lat_regular l' = true /\ scaled b (put (V3 1 1 1) a (f + INR m * spacing / h)) b'
  | Violated => hard = false \/ lat_regular l = false \/ ~ (forall s, In s cell -> in_unit s) \/ cell = [] \/ crystal_overlaps overlaps b d cell \/ (exists a', box_height lb a' <= margin * range) \/
      exists z0 rest ys, zs = z0 :: rest /\ compressed (fun ys => crystal_overlaps overlaps b d (relayered a zs ys cell)) [z0] z0 rest ys /\
        (~ cell_overlaps overlaps b d a zs ys cell (least_factor range lb a) \/
         exists f, touching (cell_overlaps overlaps b d a zs ys cell) (least_factor range lb a) f /\ f * h + INR m * spacing <= 0)
  end.
Proof.
  intros B KC DL LC h m. pose proof (built_valid _ _ _ _ B) as V. pose proof (v_constructed _ _ _ _ V) as C. pose proof (v_positive _ _ _ _ V) as P. pose proof LC as [SZ CZ].
  destruct (regular_box b d cell C P) as (lb&LB&SL). exists lb. unfold layer_optimization.
  destruct hard; cbn [validate abind]; [|exists Violated; split; [exact SL|split; [apply at_once|auto]]].
  destruct (lat_regular l) eqn:RG; cbn [validate abind]; [|exists Violated; split; [exact SL|split; [apply at_once|auto]]].
  assert (ZR : in_range (I3 0 0 0) d) by exact P. destruct (v_regular _ _ _ _ V RG) as [ms MS].
  assert (KK : forall c, in_range c d -> k c = cell).
  { intros c I0. pose proof (v_cells _ _ _ _ V c I0) as G. pose proof (v_cells _ _ _ _ V _ ZR) as G0. unfold getSpecificCell in G, G0. rewrite RG, MS in G, G0. cbn in G, G0. congruence. }
  assert (EL : l = Lattice b [cell] d true).
  { pose proof (v_cells _ _ _ _ V _ ZR) as G0. rewrite KC in G0. unfold getSpecificCell in G0. rewrite RG, MS in G0. cbn in G0. pose proof (v_box _ _ _ _ V) as VB. pose proof (v_dims _ _ _ _ V) as VD. destruct l; cbn in *. subst. injection G0 as ->. reflexivity. }
  destruct (isNormalized l) eqn:NM; cbn [validate abind].
  2:{ exists Violated. split; [exact SL|]. split; [apply at_once|]. right. right. left. intros U. rewrite (proj2 (normalized_iff _ _ _ _ V)) in NM; [discriminate|]. intros c s I0. rewrite (KK c I0). apply U. }
  assert (U : forall s, In s cell -> in_unit s) by (intros s I0; apply (proj1 (normalized_iff _ _ _ _ V) NM (I3 0 0 0) s ZR); rewrite KC; exact I0).
  rewrite (v_cells _ _ _ _ V _ ZR), KC. cbn [may_throw abind]. pose proof (layers_correct a cell zs DL LC) as LO. set (layers := getLayerAssociation cell a) in *. clearbody layers. cbv zeta.
  destruct layers as [|[z0 is0] layers'] eqn:LE.
  { exists Violated. split; [exact SL|]. split; [apply at_once|]. right. right. right. left. destruct LO as [M _]. cbn in M. destruct cell as [|s cell']; [reflexivity|]. assert (J : In (vget (sh_pos s) a) zs) by (apply CZ; exists s; split; [left|]; reflexivity). rewrite <- M in J. destruct J. }
  cbn [validate abind]. rewrite <- LE in *. assert (MZ : z0 :: map fst layers' = zs) by (rewrite <- (proj1 LO), LE; reflexivity).
  assert (NE : cell <> []). { intros ->. destruct (proj1 (CZ z0)) as (s&[]&_). rewrite <- MZ. left. reflexivity. }
  rewrite (generate_valid _ _ _ _ V). assert (LBL : getLatticeBox l = Some lb) by (rewrite EL; exact LB). rewrite LBL. cbn [may_throw abind].
  assert (CO : contents b k (loop3 AX AY AZ d) = contents b (fun _ => map frac cell) (grid d)).
  { unfold contents, grid. rewrite !flat_map_concat_map. f_equal. apply map_ext_in. intros c I0. rewrite frac_same_all by exact U. rewrite KK; [reflexivity|]. apply grid_in, I0. }
  destruct (crystal_test_spec overlaps b d cell C P) as [_ CT]. unfold crystal_test in CT. rewrite LB, <- CO in CT.
  destruct (overlaps lb (contents b k (loop3 AX AY AZ d))) eqn:OV; cbn [negb validate abind].
  { exists Violated. split; [exact SL|]. split; [apply at_once|]. do 4 right. left. apply CT. reflexivity. }
  assert (NO : ~ crystal_overlaps overlaps b d cell) by (intros K; apply CT in K; discriminate).
  assert (Z0 : 0 <= z0). { destruct (proj1 (CZ z0)) as (s&I0&<-); [rewrite <- MZ; left; reflexivity|]. apply (U s I0 a). }
  destruct (layers_suffix a cell zs layers SZ CZ LO overlaps b d C P layers' [] z0 is0 LE Z0 [z0] eq_refl) as (ys&[n1 T1]&LY&CP).
  assert (RS : relayered a zs ([z0] ++ map fst layers') cell = cell) by (cbn [app]; rewrite MZ; apply (relayered_same a cell zs layers SZ CZ LO)). rewrite RS in T1.
  rewrite (v_box _ _ _ _ V), (v_dims _ _ _ _ V).
  destruct (optimizeCell_spec a cell zs layers CZ LO overlaps b d C P range ys lb range_pos SL) as (r&[n2 T2]&R2).
  destruct r as [c|].
  2:{ exists Violated. split; [exact SL|]. split.
      - exists (n1 + n2)%nat. intros fuel F. unfold optimizeLayers. rewrite LE at 1. rewrite T1 by lia. cbn [abind]. rewrite T2 by lia. reflexivity.
      - destruct R2 as [R2|R2]; [do 5 right; left; exact R2|]. do 6 right. exists z0, (map fst layers'), ys. split; [symmetry; exact MZ|]. split; [exact CP|]. left. exact R2. }
  destruct R2 as (HH&OL&f&TG&FP&RC). pose proof (introduceSpacing_spec a cell zs layers SZ CZ LO b C ys f spacing c LY FP RC) as SP. cbv zeta in SP. fold h m in SP.
  destruct (Rltb 0 (f * h + INR m * spacing)) eqn:PS.
  2:{ apply Rltb_false in PS. exists Violated. split; [exact SL|]. split.
      - exists (n1 + n2)%nat. intros fuel F. unfold optimizeLayers. rewrite LE at 1. rewrite T1 by lia. cbn [abind]. rewrite T2 by lia. cbn [abind]. rewrite SP. reflexivity.
      - do 6 right. exists z0, (map fst layers'), ys. split; [symmetry; exact MZ|]. split; [exact CP|]. right. exists f. auto. }
  apply Rltb_true in PS. destruct SP as (b'&SP&SB). set (ws := spaced h f spacing m 0 ys) in *. assert (LW : length ws = m) by (unfold ws; rewrite spaced_length; exact LY).
  assert (LC0 : (0 < length cell)%nat) by (destruct cell; [contradiction|cbn; lia]).
  destruct (nth_error cell 0) as [s0|] eqn:E0; [|apply nth_error_None in E0; lia]. destruct (nth_error cell (length cell - 1)) as [s1|] eqn:E1; [|apply nth_error_None in E1; lia].
  pose proof (center_spec a cell zs SZ CZ ws s0 s1 LW E0 E1) as CS.
  match type of CS with _ = Some ?x => set (final := x) in * end.
  destruct (normalize_regular b' d final) as [n3 T3]. exists (Value (Lattice b' [map frac final] d true)). split; [exact SL|]. split.
  - exists (n1 + n2 + n3)%nat. intros fuel F. unfold optimizeLayers. rewrite LE at 1. rewrite T1 by lia. cbn [abind]. rewrite T2 by lia. cbn [abind]. rewrite SP. cbn [abind fst snd]. rewrite CS. cbn [may_throw abind]. rewrite T3 by lia. reflexivity.
  - repeat (split; [assumption || reflexivity|]). exists z0, (map fst layers'), ys, f, s0, s1, b', (map frac final), ws. split; [symmetry; exact MZ|].
    repeat (split; [assumption || reflexivity|]). split; [apply wrapped_all; reflexivity|]. split; [|split; [reflexivity|exact SB]].
    apply (built_normalized (Lattice b' [final] d true) b' d (fun _ => final) n3); [apply built_new; [apply SB|apply make_iff; auto]|apply T3; lia|]. intros c0 I0.
    exact (v_cells _ _ _ _ (regular_valid b' d (map frac final) (proj1 SB) P) c0 I0).
Qed.
End Whole.
