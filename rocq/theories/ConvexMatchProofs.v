(** Which descriptions of convex bodies are accepted. *)
From Coq Require Import Reals ZArith List Bool Lia ZifyBool Sorted String.
From Verif Require Import TextModel TextProofs StringsModel PyonModel MatchModel MatchSpec MatchProofs GeomModel GeomProofs GeoModel XcModel XcSpec OptModel InputModel InputSpec InputCallProofs InputPartProofs InputRunProofs ConvexModel ConvexSpec ConvexMeanProofs.
Import ListNotations.
Open Scope Z_scope.

Section Match.
Variable of_float : list Z -> R.
Notation any := (@InputModel.any vec (list command) convex_shape points).
Notation mt := (matcher any).
Notation num := (num of_float).
Notation positive := (positive_num of_float).
Notation vector := (vector of_float).
Notation size_m := (size_m of_float).
Notation vector_m := (vector_m of_float).

Lemma real_map (l : list any) xs : as_all as_real l = Some xs <-> l = map AReal xs.
Proof. apply (all_of as_real AReal c_real). reflexivity. Qed.
Lemma triple_iff l v : triple l = Some v <-> l = [AReal (vx v); AReal (vy v); AReal (vz v)].
Proof.
  unfold triple. rewrite obind_some. split.
  - intros (xs & H & X). apply real_map in H. subst l. destruct xs as [|a [|b [|c [|]]]]; try discriminate. injection X as <-. reflexivity.
  - intros ->. exists [vx v; vy v; vz v]. split; [reflexivity|]. destruct v. reflexivity.
Qed.
Lemma three_numbers l vs : Forall2 (accepts (@ANode vec (list command) convex_shape points) (Some (InputModel.real_m of_float [] AReal))) l (map AReal vs) <-> Forall2 num l vs.
Proof.
  split.
  - intros H. remember (map AReal vs) as ws. revert vs Heqws. induction H as [|n w l ws H F IH]; intros [|x vs] E; try discriminate; [constructor|]. injection E as -> ->. constructor; [|apply IH; reflexivity].
    cbn [accepts] in H. unfold InputModel.real_m in H. apply float_node in H. destruct H as (y & H & _ & E). injection E as ->. exact H.
  - induction 1 as [|n x l vs H F IH]; cbn [map]; constructor; [|exact IH]. cbn [accepts]. unfold InputModel.real_m. apply float_node. exists x. split; [exact H|]. split; [constructor|reflexivity].
Qed.
Lemma triple_node n fs v : (exists l, n = NArray l /\ exists vs, Forall2 (accepts (@ANode vec (list command) convex_shape points) (Some (InputModel.real_m of_float [] AReal))) l vs /\ all_true fs vs /\ triple vs = Some v) <-> vector n v /\ all_true fs (map AReal [vx v; vy v; vz v]).
Proof.
  unfold ConvexSpec.vector, three_of. cbn [fst snd]. split.
  - intros (l & -> & vs & F & A & T). apply triple_iff in T. subst vs. split; [|exact A]. change [AReal (vx v); AReal (vy v); AReal (vz v)] with (map (@AReal vec (list command) convex_shape points) [vx v; vy v; vz v]) in F. apply three_numbers in F.
    inversion F as [|a ? ? ? H1 F1]; subst. inversion F1 as [|b ? ? ? H2 F2]; subst. inversion F2 as [|c ? ? ? H3 F3]; subst. inversion F3; subst. exists a, b, c. auto.
  - intros ((a & b & c & -> & H1 & H2 & H3) & A). eexists. split; [reflexivity|]. exists (map AReal [vx v; vy v; vz v]). split; [apply three_numbers; exact (Forall2_cons _ _ H1 (Forall2_cons _ _ H2 (Forall2_cons _ _ H3 (Forall2_nil _))))|]. split; [exact A|]. apply triple_iff. reflexivity.
Qed.
Lemma vector_denotes : denotes vector_m (@AArr vec (list command) convex_shape points) vector.
Proof.
  intros n v R. unfold ConvexModel.vector_m, array_m. rewrite array_node. split.
  - intros (l & vs & -> & H & E). apply array_iff in H. destruct H as [H F]. cbn [am_element am_filters] in *. symmetry in E. apply made_some in E; [|discriminate]. apply obind_some in E. destruct E as (u & T & X). injection X as ->. apply (proj1 (triple_node (NArray l) [size_three] v)). exists l. split; [reflexivity|]. exists vs. auto.
  - intros H. destruct (proj2 (triple_node n [size_three] v)) as (l & -> & vs & F & A & T). { split; [exact H|]. apply all_cons. split; [reflexivity|constructor]. }
    exists l, vs. split; [reflexivity|]. split; [apply array_iff; split; assumption|]. rewrite T. reflexivity.
Qed.
Lemma size_denotes : denotes size_m (@AReal vec (list command) convex_shape points) positive. Proof. exact (positive_real of_float). Qed.
Lemma zeros_regular : regular zeros. Proof. apply Reg_array. repeat constructor; lia. Qed.
Lemma zeros_vector : vector zeros vzero.
Proof. unfold ConvexSpec.vector, three_of. exists (NInt 0), (NInt 0), (NInt 0). split; [reflexivity|]. repeat split; left; exists 0; split; reflexivity. Qed.
Lemma c_script (v : any) cs : as_script v = Some cs -> v = script cs.
Proof. unfold as_script. rewrite obind_some. intros (o & H & E). apply c_shape in H. subst. reflexivity. Qed.

Ltac unbind M := repeat (apply obind_some in M; let x := fresh "x" in let E := fresh "E" in destruct M as (x & E & M)).
Ltac uncast := repeat match goal with
  | E : as_real ?v = Some _ |- _ => apply c_real in E; subst v
  | E : as_arr ?v = Some _ |- _ => apply c_arr in E; subst v
  | E : as_bulk ?v = Some _ |- _ => apply c_bulk in E; subst v
  | E : as_script ?v = Some _ |- _ => apply c_script in E; subst v
  end.
Ltac req Ra := eapply req_iff'; [first [exact size_denotes|exact vector_denotes]|exact Ra|eassumption].
Ltac opt Ra := eapply opt_iff; [exact vector_denotes|exact Ra|exact zeros_regular|exact zeros_vector|congruence|eassumption].
Ltac fwd R := intros (a & vs & O & B & F & M); pose proof (object_regular _ _ _ _ R O) as Ra; cbn [placed_sig map app binds fst] in B; values vs B; decompose [and] B; clear B; symmetry in M; apply made_some in M; [|discriminate]; revert M F; rewrite ?all_cons; gets; intros M F; unbind M; uncast.
Ltac parts Ra := repeat (split; [first [req Ra|opt Ra]|]); first [req Ra|opt Ra|exact Logic.I].

Definition makes (m : mt) (P : geom -> node -> Prop) : Prop := forall n cs, regular n -> (mt_match any m n = Match (script cs) <-> exists g, P g n /\ cs = compile g).
Definition primitives (f : geom -> Prop) (g : geom) (n : node) : Prop := f g /\ written of_float g n.

Lemma point_makes : makes (point_class of_float) (primitives (fun g => exists p, g = GPoint p)).
Proof.
  intros n cs R. unfold point_class. rewrite class_object with (sg := [("pos", true)]%string); [|reflexivity|reflexivity|exact R]. split.
  - fwd R. injection M as <-. exists (GPoint x). split; [|reflexivity]. split; [eauto|]. cbn [written]. exists a. split; [exact O|]. req Ra.
  - intros (g & ((p & ->) & a & O & A) & ->). pose proof (object_regular _ _ _ _ R O) as Ra. exists a, [AArr p]. split; [exact O|]. split; [cbn [binds fst]; parts Ra|]. split; [constructor|]. gets. reflexivity.
Qed.
Lemma segment_makes : makes (segment_class of_float) (primitives (fun g => exists l pos rot, g = GPrimitive (Stick l) pos rot)).
Proof.
  intros n cs R. unfold segment_class. rewrite class_object with (sg := placed_sig ["l"%string]); [|reflexivity|reflexivity|exact R]. split.
  - fwd R. injection M as <-. exists (GPrimitive (Stick x) x0 x1). split; [|reflexivity]. split; [eauto|]. exists a. split; [exact O|]. unfold placed_at. parts Ra.
  - intros (g & ((l & pos & rot & ->) & a & O & A & A1 & A2) & ->). pose proof (object_regular _ _ _ _ R O) as Ra. exists a, [AReal l; AArr pos; AArr rot]. split; [exact O|]. split; [cbn [placed_sig map app binds fst]; parts Ra|]. split; [constructor|]. gets. reflexivity.
Qed.
Lemma rectangle_makes : makes (rectangle_class of_float) (primitives (fun g => exists x y pos rot, g = GPrimitive (Plate x y) pos rot)).
Proof.
  intros n cs R. unfold rectangle_class. rewrite class_object with (sg := placed_sig ["ax"; "ay"]%string); [|reflexivity|reflexivity|exact R]. split.
  - fwd R. injection M as <-. exists (GPrimitive (Plate x x0) x1 x2). split; [|reflexivity]. split; [eauto 6|]. exists a. split; [exact O|]. unfold placed_at. parts Ra.
  - intros (g & ((x & y & pos & rot & ->) & a & O & A & A0 & A1 & A2) & ->). pose proof (object_regular _ _ _ _ R O) as Ra. exists a, [AReal x; AReal y; AArr pos; AArr rot]. split; [exact O|]. split; [cbn [placed_sig map app binds fst]; parts Ra|]. split; [constructor|]. gets. reflexivity.
Qed.
Lemma cuboid_makes : makes (cuboid_class of_float) (primitives (fun g => exists x y z pos rot, g = GPrimitive (Box x y z) pos rot)).
Proof.
  intros n cs R. unfold cuboid_class. rewrite class_object with (sg := placed_sig ["ax"; "ay"; "az"]%string); [|reflexivity|reflexivity|exact R]. split.
  - fwd R. injection M as <-. exists (GPrimitive (Box x x0 x1) x2 x3). split; [|reflexivity]. split; [eauto 7|]. exists a. split; [exact O|]. unfold placed_at. parts Ra.
  - intros (g & ((x & y & z & pos & rot & ->) & a & O & A & A0 & A00 & A1 & A2) & ->). pose proof (object_regular _ _ _ _ R O) as Ra. exists a, [AReal x; AReal y; AReal z; AArr pos; AArr rot]. split; [exact O|]. split; [cbn [placed_sig map app binds fst]; parts Ra|]. split; [constructor|]. gets. reflexivity.
Qed.
Lemma disk_makes : makes (disk_class of_float) (primitives (fun g => exists l pos rot, g = GPrimitive (Round l) pos rot)).
Proof.
  intros n cs R. unfold disk_class. rewrite class_object with (sg := placed_sig ["r"%string]); [|reflexivity|reflexivity|exact R]. split.
  - fwd R. injection M as <-. exists (GPrimitive (Round x) x0 x1). split; [|reflexivity]. split; [eauto|]. exists a. split; [exact O|]. unfold placed_at. parts Ra.
  - intros (g & ((l & pos & rot & ->) & a & O & A & A1 & A2) & ->). pose proof (object_regular _ _ _ _ R O) as Ra. exists a, [AReal l; AArr pos; AArr rot]. split; [exact O|]. split; [cbn [placed_sig map app binds fst]; parts Ra|]. split; [constructor|]. gets. reflexivity.
Qed.
Lemma ball_compile r pos : compile (GPrimitive (Ball r) pos vzero) = [Sphere r; Move (vx pos) (vy pos) (vz pos)].
Proof. cbn [compile order]. unfold placing. rewrite (proj2 (non_zero vzero) eq_refl). reflexivity. Qed.
Lemma sphere_makes : makes (sphere_class of_float) (primitives (fun g => exists r pos rot, g = GPrimitive (Ball r) pos rot)).
Proof.
  intros n cs R. unfold sphere_class. rewrite class_object with (sg := [("r", true); ("pos", false)]%string); [|reflexivity|reflexivity|exact R]. split.
  - fwd R. injection M as <-. exists (GPrimitive (Ball x) x0 vzero). split; [|symmetry; apply ball_compile]. split; [eauto|]. exists a. split; [exact O|]. split; [req Ra|]. split; [opt Ra|reflexivity].
  - intros (g & ((l & pos & rot & ->) & a & O & A & A1 & ->) & ->). pose proof (object_regular _ _ _ _ R O) as Ra. exists a, [AReal l; AArr pos]. split; [exact O|]. split; [cbn [binds fst]; parts Ra|]. split; [constructor|]. gets. rewrite ball_compile. reflexivity.
Qed.
Lemma ellipse_makes : makes (ellipse_class of_float) (primitives (fun g => exists x y pos rot, g = GPrimitive (Oval x y) pos rot)).
Proof.
  intros n cs R. unfold ellipse_class. rewrite class_object with (sg := placed_sig ["rx"; "ry"]%string); [|reflexivity|reflexivity|exact R]. split.
  - fwd R. injection M as <-. exists (GPrimitive (Oval x x0) x1 x2). split; [|reflexivity]. split; [eauto 6|]. exists a. split; [exact O|]. unfold placed_at. parts Ra.
  - intros (g & ((x & y & pos & rot & ->) & a & O & A & A0 & A1 & A2) & ->). pose proof (object_regular _ _ _ _ R O) as Ra. exists a, [AReal x; AReal y; AArr pos; AArr rot]. split; [exact O|]. split; [cbn [placed_sig map app binds fst]; parts Ra|]. split; [constructor|]. gets. reflexivity.
Qed.
Lemma ellipsoid_makes : makes (ellipsoid_class of_float) (primitives (fun g => exists x y z pos rot, g = GPrimitive (Egg x y z) pos rot)).
Proof.
  intros n cs R. unfold ellipsoid_class. rewrite class_object with (sg := placed_sig ["rx"; "ry"; "rz"]%string); [|reflexivity|reflexivity|exact R]. split.
  - fwd R. injection M as <-. exists (GPrimitive (Egg x x0 x1) x2 x3). split; [|reflexivity]. split; [eauto 7|]. exists a. split; [exact O|]. unfold placed_at. parts Ra.
  - intros (g & ((x & y & z & pos & rot & ->) & a & O & A & A0 & A00 & A1 & A2) & ->). pose proof (object_regular _ _ _ _ R O) as Ra. exists a, [AReal x; AReal y; AReal z; AArr pos; AArr rot]. split; [exact O|]. split; [cbn [placed_sig map app binds fst]; parts Ra|]. split; [constructor|]. gets. reflexivity.
Qed.
Lemma saucer_makes : makes (saucer_class of_float) (primitives (fun g => exists r l pos rot, g = GPrimitive (Lens r l) pos rot)).
Proof.
  intros n cs R. unfold saucer_class. rewrite class_object with (sg := placed_sig ["r"; "l"]%string); [|reflexivity|reflexivity|exact R]. split.
  - fwd R. injection M as <-. exists (GPrimitive (Lens x x0) x1 x2). split; [|reflexivity]. split; [eauto 6|]. exists a. split; [exact O|]. destruct F as [F _]. cbn [as_real obind truth] in F. apply Rleb_true in F. unfold placed_at. split; [req Ra|]. split; [req Ra|]. split; [parts Ra|exact F].
  - intros (g & ((x & y & pos & rot & ->) & a & O & A & A0 & (A1 & A2) & L) & ->). pose proof (object_regular _ _ _ _ R O) as Ra. exists a, [AReal x; AReal y; AArr pos; AArr rot]. split; [exact O|]. split; [cbn [placed_sig map app binds fst]; parts Ra|]. split; [apply all_cons; split; [|constructor]; gets; cbn [as_real obind truth]; apply Rleb_true; exact L|]. gets. reflexivity.
Qed.
Lemma football_makes : makes (football_class of_float) (primitives (fun g => exists r l pos rot, g = GPrimitive (Lemon r l) pos rot)).
Proof.
  intros n cs R. unfold football_class. rewrite class_object with (sg := placed_sig ["r"; "l"]%string); [|reflexivity|reflexivity|exact R]. split.
  - fwd R. injection M as <-. exists (GPrimitive (Lemon x x0) x1 x2). split; [|reflexivity]. split; [eauto 6|]. exists a. split; [exact O|]. destruct F as [F _]. cbn [as_real obind truth] in F. apply Rleb_true in F. unfold placed_at. split; [req Ra|]. split; [req Ra|]. split; [parts Ra|exact F].
  - intros (g & ((x & y & pos & rot & ->) & a & O & A & A0 & (A1 & A2) & L) & ->). pose proof (object_regular _ _ _ _ R O) as Ra. exists a, [AReal x; AReal y; AArr pos; AArr rot]. split; [exact O|]. split; [cbn [placed_sig map app binds fst]; parts Ra|]. split; [apply all_cons; split; [|constructor]; gets; cbn [as_real obind truth]; apply Rleb_true; exact L|]. gets. reflexivity.
Qed.

(** *** Operations *)
Definition makes_at (m : mt) (n : node) : Prop := forall cs, mt_match any m n = Match (script cs) <-> exists g, written of_float g n /\ cs = compile g.
Lemma scripts_map (l : list any) xs : as_all as_script l = Some xs <-> l = map script xs.
Proof. apply (all_of as_script script c_script). reflexivity. Qed.
Lemma elements_make m ns : Forall (makes_at m) ns -> forall css, Forall2 (accepts (@ANode vec (list command) convex_shape points) (Some m)) ns (map script css) <-> exists gs, pairwise (written of_float) gs ns /\ css = map compile gs.
Proof.
  induction 1 as [|n ns M F IH]; intros css.
  - split; [destruct css; [intros _; exists []; split; [exact Logic.I|reflexivity]|intros H; inversion H]|]. intros (gs & P & ->). destruct gs; [constructor|destruct P].
  - split.
    + destruct css as [|cs css]; intros H; inversion H as [|? ? ? ? H1 H2]; subst. cbn [accepts] in H1. apply (M cs) in H1. destruct H1 as (g & W & ->). apply IH in H2. destruct H2 as (gs & P & ->). exists (g :: gs). split; [split; assumption|reflexivity].
    + intros (gs & P & ->). destruct gs as [|g gs]; [destruct P|]. destruct P as [W P]. cbn [map]. constructor; [cbn [accepts]; apply (M (compile g)); eauto|]. apply (proj2 (IH (map compile gs))). eauto.
Qed.
Definition many (name : string) (op : nat -> command) (m : mt) : mt :=
  class_m name [] (Some (ArrayMatcher any (Some m) [at_least_two])) None [] (fun d => l <- as_all as_script (cd_args any d) ;; Some (script (List.concat l ++ [op (List.length l)]))).
Lemma many_iff name op m n : regular n -> (forall ns kw, n = NClass (tx name) ns kw -> Forall (makes_at m) ns) -> forall cs, mt_match any (many name op m) n = Match (script cs) <->
  exists gs ns, n = NClass (tx name) ns [] /\ (2 <= List.length gs)%nat /\ pairwise (written of_float) gs ns /\ cs = List.concat (map compile gs) ++ [op (List.length gs)].
Proof.
  intros R K cs. unfold many, class_m. rewrite class_node. cbn [cm_name]. split.
  - intros (pos & kw & c & -> & H & M). specialize (K pos kw eq_refl). inversion R as [| | | | | | |? ? ? Rp Nk Rk]; subst. apply class_iff in H; [|constructor|exact Nk]. destruct H as (C & L & _ & A1 & A2 & F). cbn [cm_args cm_kwargs cm_params cm_filters List.length skipn] in *.
    destruct A1 as [A1 A3]. cbn [am_filters am_element] in *. symmetry in M. apply made_some in M; [|discriminate]. apply obind_some in M. destruct M as (l & E & M). injection M as <-. apply scripts_map in E. apply all_cons in A3. destruct A3 as [A3 _]. apply Nat.leb_le in A3. rewrite E in *. rewrite map_length in A3.
    apply (elements_make _ _ K) in A1. destruct A1 as (gs & P & ->). assert (kw = []). { destruct kw as [|e kw]; [reflexivity|]. exfalso. apply C. apply (E_unknown _ _ _ (fst e)); [reflexivity|left; reflexivity|intros []]. } subst kw. exists gs, pos. rewrite map_length in *. auto.
  - intros (gs & ns & -> & L & P & ->). specialize (K ns [] eq_refl). inversion R as [| | | | | | |? ? ? Rp Nk Rk]; subst. exists ns, [], (ClassData any [] (map script (map compile gs)) []). split; [reflexivity|]. assert (Ep : as_all as_script (map script (map compile gs)) = Some (map compile gs)) by (apply scripts_map; reflexivity). split; [|cbn [cd_args]; rewrite Ep; cbn [obind made]; rewrite map_length; reflexivity].
    apply class_iff; [constructor|constructor|]. unfold class_matched. cbn [cm_args cm_kwargs cm_params cm_filters cd_standard cd_args cd_kwargs List.length skipn]. split; [|split; [reflexivity|split; [intros [|i] p H; discriminate|split; [split; [cbn [am_element]; apply (elements_make _ _ K); eauto|apply all_cons; split; [apply Nat.leb_le; rewrite !map_length; exact L|constructor]]|split; [reflexivity|constructor]]]]].
    intros H. destruct H as [H _|i p H _ _ _|i p n' H _ _|k _ H _]; [discriminate|destruct i; discriminate|destruct i; discriminate|contradiction].
Qed.
Lemma diff_iff m n : regular n -> (forall a k m', object n "diff" [("g1", true); ("g2", true)]%string a -> a k = Some m' -> makes_at m m') -> forall cs, mt_match any (diff_class m) n = Match (script cs) <->
  exists g1 g2, written of_float (GDiff g1 g2) n /\ cs = compile (GDiff g1 g2).
Proof.
  intros R K cs. unfold diff_class. rewrite class_object with (sg := [("g1", true); ("g2", true)]%string); [|reflexivity|reflexivity|exact R]. split.
  - fwd R. injection M as <-. rename H into B1. rename H1 into B2. unfold valued, required in B1, B2. cbn [p_matcher p_default accepts fst] in B1, B2.
    destruct (a "g1"%string) as [n1|] eqn:E1; [|discriminate]. destruct (a "g2"%string) as [n2|] eqn:E2; [|discriminate]. apply (K a "g1"%string n1 O E1) in B1. apply (K a "g2"%string n2 O E2) in B2. destruct B1 as (g1 & W1 & ->). destruct B2 as (g2 & W2 & ->).
    exists g1, g2. split; [|reflexivity]. exists a. split; [exact O|]. split; eauto.
  - intros (g1 & g2 & (a & O & (n1 & E1 & W1) & (n2 & E2 & W2)) & ->). exists a, [script (compile g1); script (compile g2)]. split; [exact O|]. split; [cbn [binds fst]; unfold valued, required; cbn [p_matcher p_default accepts]; rewrite E1, E2|split; [constructor|gets; reflexivity]].
    split; [apply (K a "g1"%string n1 O E1); eauto|]. split; [apply (K a "g2"%string n2 O E2); eauto|exact Logic.I].
Qed.

(** *** All of them *)
Lemma max_in f (l : list node) n : In n l -> (f n <= list_max (map f l))%nat.
Proof. intros I. pose proof (proj1 (list_max_le (map f l) (list_max (map f l))) (Nat.le_refl _)) as F. rewrite Forall_forall in F. apply F. apply in_map. exact I. Qed.
Lemma max_in_kw (l : list (text * node)) e : In e l -> (depth (snd e) <= list_max (map (fun e => depth (snd e)) l))%nat.
Proof. intros I. pose proof (proj1 (list_max_le (map (fun e => depth (snd e)) l) _) (Nat.le_refl _)) as F. rewrite Forall_forall in F. apply F. apply in_map_iff. exists e. auto. Qed.
Lemma given_deep ns kw k n : forall pos, given ns pos kw k = Some n -> (depth n < depth (NClass k pos kw))%nat.
Proof.
  induction ns as [|m ns IH]; intros pos H; [discriminate|]. cbn [given] in H. cbn [depth]. destruct (text_eqb k m).
  - destruct pos as [|p pos]; [|injection H as ->; pose proof (max_in depth (n :: pos) n (or_introl eq_refl)); lia]. unfold keyword in H. destruct (List.find _ kw) as [e|] eqn:E; [|discriminate]. injection H as <-. apply find_some in E. pose proof (max_in_kw kw e (proj1 E)). lia.
  - specialize (IH (tl pos) H). cbn [depth] in IH. destruct pos as [|p pos]; cbn [tl] in IH; [exact IH|]. cbn [map list_max fold_right] in *. unfold list_max in *. cbn [fold_right]. lia.
Qed.
Lemma object_deep n name sg a k m : object n name sg a -> a k = Some m -> (depth m < depth n)%nat.
Proof. intros (pos & kw & -> & _ & G) H. rewrite G in H. apply given_deep in H. exact H. Qed.
Lemma chain (a b c d e f g h i j k l m : mt) : or_ (or_ (or_ (or_ (or_ (or_ (or_ (or_ (or_ (or_ (or_ (or_ (alone a) b) c) d) e) f) g) h) i) j) k) l) m = alternative_of [a; b; c; d; e; f; g; h; i; j; k; l; m].
Proof. unfold alternative_of, alone, or_. cbn [fold_left]. reflexivity. Qed.
Theorem geometry_makes f : forall n, regular n -> (depth n < f)%nat -> makes_at (geometry_m of_float f) n.
Proof.
  induction f as [|f IH]; intros n R D; [lia|]. intros cs. cbn [geometry_m]. set (m := geometry_m of_float f) in *.
  unfold script_a. rewrite chain. change (sum_class m) with (many "sum" Sum m). change (wrap_class m) with (many "wrap" Wrap m).
  rewrite alt_iff; [|repeat (constructor; [apply typed_class|]); constructor|reflexivity]. rewrite !Exists_cons, Exists_nil.
  rewrite (point_makes n cs R), (segment_makes n cs R), (rectangle_makes n cs R), (cuboid_makes n cs R), (disk_makes n cs R), (sphere_makes n cs R), (ellipse_makes n cs R), (ellipsoid_makes n cs R), (saucer_makes n cs R), (football_makes n cs R).
  assert (Kl : forall name ns kw, n = NClass (tx name) ns kw -> Forall (makes_at m) ns).
  { intros name ns kw ->. apply Forall_forall. intros n' I. apply IH; [inversion R as [| | | | | | |? ? ? Rp]; subst; rewrite Forall_forall in Rp; apply Rp; exact I|]. cbn [depth] in D. pose proof (max_in depth ns n' I). lia. }
  rewrite (many_iff "sum" Sum m n R (Kl "sum"%string) cs), (many_iff "wrap" Wrap m n R (Kl "wrap"%string) cs).
  rewrite (diff_iff m n R) by (intros a k m' O E; apply IH; [exact (object_regular _ _ _ _ R O k m' E)|]; pose proof (object_deep _ _ _ _ _ _ O E); lia).
  unfold primitives. split.
  - intros H. repeat (destruct H as [H|H]); try (destruct H as (g & (_ & W) & E); exists g; auto; fail).
    + destruct H as (gs & ns & -> & L & P & ->). exists (GSum gs). split; [exists ns; auto|reflexivity].
    + destruct H as (g1 & g2 & W & ->). eauto.
    + destruct H as (gs & ns & -> & L & P & ->). exists (GWrap gs). split; [exists ns; auto|reflexivity].
    + destruct H.
  - intros (g & W & ->). destruct g as [p|p pos rot|gs|g1 g2|gs].
    + left. exists (GPoint p). split; [split; [eauto|exact W]|reflexivity].
    + right. destruct p; [left|right; left|do 2 right; left|do 3 right; left|do 4 right; left|do 5 right; left|do 6 right; left|do 7 right; left|do 8 right; left];
        (eexists; split; [split; [|exact W]; eauto 7|reflexivity]).
    + do 10 right. left. destruct W as (ns & -> & L & P). exists gs, ns. auto.
    + do 11 right. left. eauto.
    + do 12 right. left. destruct W as (ns & -> & L & P). exists gs, ns. auto.
Qed.
Theorem geometry_iff n : regular n -> makes_at (geometry of_float) n.
Proof. intros R cs. unfold geometry. cbn [mt_match]. apply (geometry_makes (S (depth n)) n R). lia. Qed.
Lemma written_valid g : forall n, written of_float g n -> valid g.
Proof.
  induction g as [p|p pos rot|gs IH|g1 g2 IH1 IH2|gs IH] using geom_all; intros n W; cbn [valid].
  - exact Logic.I.
  - destruct p; destruct W as (a & W); cbn [valid_size]; unfold arg in W; decompose [and ex] W; unfold positive_num in *; decompose [and] W; repeat match goal with H : _ /\ _ |- _ => destruct H end; tauto.
  - destruct W as (ns & _ & L & P). split; [exact L|]. apply (all_iff valid). apply pairwise_iff in P. clear L. revert IH. induction P as [|g n' gs ns W P IHP]; intros F; inversion F; subst; constructor; eauto.
  - destruct W as (a & _ & (n1 & _ & W1) & (n2 & _ & W2)). split; eauto.
  - destruct W as (ns & _ & L & P). split; [exact L|]. apply (all_iff valid). apply pairwise_iff in P. clear L. revert IH. induction P as [|g n' gs ns W P IHP]; intros F; inversion F; subst; constructor; eauto.
Qed.
End Match.
