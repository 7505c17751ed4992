From Coq Require Import Reals ZArith List Bool String Lia Arith Lra.
From Verif Require Import TextModel TextProofs GeomModel GeomProofs PbcModel GeoModel ShapesModel MeshModel MeshSpec XyzModel XyzSpec PrintModel PrintSpec PrintParseProofs OptModel.
Import ListNotations.
Local Open Scope list_scope.

Ltac lit := apply lexed_literal; [discriminate|reflexivity|reflexivity].
Lemma separated_lexed sep (ts : list (list Z)) tss : lexed sep [TComma] -> Forall2 lexed ts tss -> lexed (separated sep ts) (commas tss).
Proof.
  intros S F. induction F as [|t x ts tss T F IH]; [apply lexed_nil|].
  destruct F as [|t' x' ts tss T' F]; [exact T|].
  change (separated sep (t :: t' :: ts)) with (t ++ sep ++ separated sep (t' :: ts)).
  change (commas (x :: x' :: tss)) with (x ++ [TComma] ++ commas (x' :: tss)).
  apply lexed_app; [exact T|]. apply lexed_app; [exact S|exact IH].
Qed.
Lemma lined_lexed (ts : list (list Z)) tss : Forall2 lexed ts tss -> lexed (lined ts) (commas tss).
Proof.
  intros F. induction F as [|t x ts tss T F IH]; [apply lexed_nil|].
  destruct F as [|t' x' ts tss T' F].
  - cbn [lined commas]. rewrite <- (app_nil_r x). apply lexed_app; [exact T|lit].
  - change (lined (t :: t' :: ts)) with (t ++ (tx "," ++ endl) ++ lined (t' :: ts)).
    change (commas (x :: x' :: tss)) with (x ++ [TComma] ++ commas (x' :: tss)).
    apply lexed_app; [exact T|]. apply lexed_app; [lit|exact IH].
Qed.
Lemma map_lexed {A} (f : A -> list Z) (g : A -> expr) l : (forall a, lexed (f a) (toks (g a))) -> Forall2 lexed (map f l) (map toks (map g l)).
Proof. intros H. induction l; constructor; auto. Qed.

Section texts.
Variables plain fixed : R -> list Z.
Hypothesis fixed_ok : readable fixed.

(** Walks along a text of literals and numbers. *)
Ltac step num_ok := first
  [ apply lexed_num; [apply num_ok|reflexivity|]
  | apply lexed_decimal; [reflexivity|]
  | lit
  | apply lexed_app; [lit|]
  | eassumption
  | apply lexed_app; [eassumption|] ].
Ltac walk num_ok := eapply lexed_eq; [repeat step num_ok|].

Lemma vec_lexed num v : readable num -> lexed (show_vec num v) (toks (vec_expr num v)).
Proof. intros N. unfold show_vec. walk N. reflexivity. Qed.
Lemma sphere_lexed r s : readable plain -> lexed (print_sphere plain r s) (toks (picture plain (SphereP r) s)).
Proof. intros N. pose proof (vec_lexed plain (sh_pos s) N). unfold print_sphere. walk N. reflexivity. Qed.
Lemma bead_lexed s b : lexed (bead_toWolfram fixed s b) (toks (ball_expr fixed s b)).
Proof. pose proof (vec_lexed fixed (placed s (bd_pos b)) fixed_ok) as V. unfold bead_toWolfram. unfold placed in V at 1. walk fixed_ok. reflexivity. Qed.
Lemma rod_lexed s r : lexed (rod_toWolfram fixed s r) (toks (tube_expr fixed (tx "Tube") s (vadd (rd_pos r) (rd_half r)) (vsub (rd_pos r) (rd_half r)) (rd_radius r))).
Proof.
  unfold rod_toWolfram, tube_expr. cbv zeta.
  replace (vadd (vadd (sh_pos s) (mvec (sh_rot s) (rd_pos r))) (mvec (sh_rot s) (rd_half r))) with (placed s (vadd (rd_pos r) (rd_half r)))
    by (unfold placed; rewrite mvec_add, vadd_assoc; reflexivity).
  replace (vsub (vadd (sh_pos s) (mvec (sh_rot s) (rd_pos r))) (mvec (sh_rot s) (rd_half r))) with (placed s (vsub (rd_pos r) (rd_half r)))
    by (unfold placed; rewrite mvec_sub; apply vec_ext; cbn; ring).
  pose proof (vec_lexed fixed (placed s (vadd (rd_pos r) (rd_half r))) fixed_ok) as V. pose proof (vec_lexed fixed (placed s (vsub (rd_pos r) (rd_half r))) fixed_ok) as W.
  apply (lexed_app (tx "Tube[{") _ [TName (tx "Tube"); TOpen; TLeft]); [lit|].
  eapply lexed_eq; [apply lexed_app; [exact V|]; apply lexed_app; [lit|]; apply lexed_app; [exact W|]; apply lexed_app; [lit|]; apply lexed_num; [apply fixed_ok|reflexivity|]; lit|reflexivity].
Qed.
Lemma capsule_lexed l r s : lexed (print_spherocylinder fixed l r s) (toks (picture fixed (SpherocylinderP l r) s)).
Proof.
  unfold print_spherocylinder, picture, tube_expr.
  replace (getCapCentre (-1) l s) with (placed s (V3 0 0 (- l / 2))) by (unfold getCapCentre, placed, column2, mvec, vmake; cbn [mget]; apply vec_ext; cbn; lra).
  replace (getCapCentre 1 l s) with (placed s (V3 0 0 (l / 2))) by (unfold getCapCentre, placed, column2, mvec, vmake; cbn [mget]; apply vec_ext; cbn; lra).
  pose proof (vec_lexed fixed (placed s (V3 0 0 (- l / 2))) fixed_ok) as V. pose proof (vec_lexed fixed (placed s (V3 0 0 (l / 2))) fixed_ok) as W.
  apply (lexed_app (tx "CapsuleShape[{") _ [TName (tx "CapsuleShape"); TOpen; TLeft]); [lit|].
  eapply lexed_eq; [apply lexed_app; [exact V|]; apply lexed_app; [lit|]; apply lexed_app; [exact W|]; apply lexed_app; [lit|]; apply lexed_num; [apply fixed_ok|reflexivity|]; lit|reflexivity].
Qed.
Lemma list_lexed {D} (show : D -> list Z) (ex : D -> expr) ds t : (forall d, lexed (show d) (toks (ex d))) -> print_list show ds = Some t -> lexed t (toks (Braces (map ex ds))).
Proof.
  intros H E. assert (t = tx "{" ++ separated (tx ",") (map show ds) ++ tx "}") by (unfold print_list in E; destruct ds; congruence). subst t.
  apply (lexed_app (tx "{") _ [TLeft]); [lit|]. apply lexed_app; [|lit]. apply separated_lexed; [lit|]. apply map_lexed, H.
Qed.
Lemma triangle_lexed t : lexed (show_triangle t) (toks (triangle_expr t)).
Proof. destruct t as [[i j] k]. unfold show_triangle, index. walk fixed_ok. reflexivity. Qed.
Lemma indented_lexed v : lexed (tx "    " ++ show_vec fixed v) (toks (vec_expr fixed v)).
Proof. apply (lexed_app (tx "    ") _ []); [lit|]. apply vec_lexed, fixed_ok. Qed.
Lemma complex_lexed p : lexed (storeWolframGraphicsComplex fixed p) (toks (complex_expr fixed p)).
Proof.
  unfold storeWolframGraphicsComplex, complex_expr.
  pose proof (lined_lexed _ _ (map_lexed (fun v => tx "    " ++ show_vec fixed v) (vec_expr fixed) (po_vertices p) indented_lexed)) as V.
  pose proof (lined_lexed _ _ (map_lexed show_triangle triangle_expr (po_triangles p) triangle_lexed)) as T.
  eapply lexed_eq; [apply lexed_app; [lit|]; apply lexed_app; [lit|]; apply lexed_app; [exact V|]; apply lexed_app; [lit|]; apply lexed_app; [lit|];
    apply lexed_app; [lit|]; apply lexed_app; [lit|]; apply lexed_app; [exact T|]; apply lexed_app; [lit|]; lit|].
  cbn [toks map commas app]. rewrite <- ?app_assoc. cbn [app]. rewrite <- ?app_assoc. reflexivity.
Qed.
Lemma part_lexed s part : lexed (print_part fixed s part) (toks (part_expr fixed s part)).
Proof.
  unfold print_part, part_expr. cbv zeta. fold (placed s (snd part)).
  pose proof (complex_lexed (fst part)) as C. pose proof (vec_lexed fixed (placed s (snd part)) fixed_ok) as V.
  eapply lexed_eq; [apply lexed_app; [lit|]; apply lexed_app; [exact C|]; repeat (first [apply lexed_num; [apply fixed_ok|reflexivity|]|lit|apply lexed_app; [first [lit|exact V]|]])|].
  change (toks (Call (tx "GeometricTransformation") [complex_expr fixed (fst part); Call (tx "AffineTransform") [Braces [rows_expr fixed (sh_rot s); vec_expr fixed (placed s (snd part))]]]))
    with (TName (tx "GeometricTransformation") :: TOpen :: (toks (complex_expr fixed (fst part)) ++ TComma :: (TName (tx "AffineTransform") :: TOpen :: (TLeft ::
      (toks (rows_expr fixed (sh_rot s)) ++ TComma :: toks (vec_expr fixed (placed s (snd part)))) ++ [TRight]) ++ [TClose])) ++ [TClose]).
  rewrite <- ?app_assoc. cbn [app]. reflexivity.
Qed.
Lemma mesh_lexed parts s t : print_mesh fixed parts s = Some t -> lexed t (toks (picture fixed (MeshP parts) s)).
Proof.
  intros E. destruct parts as [|part parts]; [discriminate|]. cbn [print_mesh] in E. assert (t = tx "{EdgeForm[None]," ++ endl ++ lined (map (print_part fixed s) (part :: parts)) ++ tx "}") by congruence. subst t. clear E.
  pose proof (lined_lexed _ _ (map_lexed (print_part fixed s) (part_expr fixed s) (part :: parts) (part_lexed s))) as L.
  eapply lexed_eq; [apply lexed_app; [lit|]; apply lexed_app; [lit|]; apply lexed_app; [exact L|lit]|]. reflexivity.
Qed.
Lemma print_lexed pr s t : readable (notation plain fixed pr) -> print plain fixed pr s = Some t -> lexed t (toks (picture (notation plain fixed pr) pr s)).
Proof.
  intros N E. destruct pr as [r|bs|l r|rs|ps]; cbn [notation print] in *.
  - injection E as <-. apply sphere_lexed, N.
  - refine (list_lexed _ _ bs t _ E). apply bead_lexed.
  - injection E as <-. apply capsule_lexed.
  - refine (list_lexed _ _ rs t _ E). apply rod_lexed.
  - apply mesh_lexed, E.
Qed.
Lemma print_some pr s : nonempty pr -> exists t, print plain fixed pr s = Some t.
Proof. destruct pr as [r|[]|l r|[]|[]]; cbn; intros H; try congruence; eauto. Qed.
Lemma plain_vec num v : plain_expr (vec_expr num v).
Proof. cbn. tauto. Qed.
Lemma plain_all {A} (f : A -> expr) l : (forall a, plain_expr (f a)) -> fold_right and True (map plain_expr (map f l)).
Proof. intros H. induction l; cbn; auto. Qed.
Lemma plain_picture num pr s : plain_expr (picture num pr s).
Proof.
  destruct pr as [r|bs|l r|rs|ps]; cbn [picture plain_expr]; try (cbn; tauto); try (apply plain_all; intros; cbn; tauto).
  cbn [map fold_right]. split; [cbn; tauto|]. apply plain_all. intros [p c]. cbn [part_expr plain_expr map fold_right fst snd complex_expr].
  split; [|cbn; tauto]. split; [apply plain_all; intros; apply plain_vec|]. split; [|exact Logic.I]. split; [|exact Logic.I].
  apply plain_all. intros [[i j] k]. cbn. tauto.
Qed.

Lemma standard_reads pr shapes : nonempty pr -> readable (notation plain fixed pr) ->
  exists t, storeStandard plain fixed pr shapes = Some t /\ read t = Some (graphics (Braces (map (picture (notation plain fixed pr) pr) shapes))).
Proof.
  intros NE N.
  assert (exists ts, all_some (map (print plain fixed pr) shapes) = Some ts /\ Forall2 lexed ts (map toks (map (picture (notation plain fixed pr) pr) shapes))) as (ts & A & F).
  { induction shapes as [|s shapes (ts & A & F)]; [exists []; split; [reflexivity|constructor]|].
    destruct (print_some pr s NE) as (t & T). exists (t :: ts). cbn [map all_some]. rewrite T. cbn [obind]. rewrite A. split; [reflexivity|].
    constructor; [apply print_lexed; assumption|exact F]. }
  unfold storeStandard. rewrite A. cbn [obind]. eexists. split; [reflexivity|]. apply read_spelled.
  - apply lexed_done.
    pose proof (separated_lexed (tx "," ++ endl) ts _ ltac:(lit) F) as L.
    eapply lexed_eq; [apply lexed_app; [lit|]; apply lexed_app; [lit|]; apply lexed_app; [exact L|]; apply lexed_app; [lit|lit]|].
    unfold graphics. cbn [toks map commas app]. rewrite <- app_assoc. reflexivity.
  - cbn [graphics plain_expr map fold_right]. split; [|exact Logic.I]. apply plain_all. intros s. apply plain_picture.
Qed.
Lemma placement_lexed s : lexed (show_placement fixed s) (toks (placement_expr fixed s)).
Proof.
  unfold show_placement, placement_expr. cbv zeta. pose proof (vec_lexed fixed (sh_pos s) fixed_ok) as V.
  eapply lexed_eq; [repeat (first [apply lexed_num; [apply fixed_ok|reflexivity|]|lit|apply lexed_app; [first [lit|exact V]|]])|]. reflexivity.
Qed.
Lemma affine_reads pr shapes : nonempty pr -> readable (notation plain fixed pr) ->
  exists t, storeAffineTransform plain fixed pr shapes = Some t /\
    read t = Some (graphics (MapOver (Call (tx "GeometricTransformation") [picture (notation plain fixed pr) pr default_shape; ToSlot (tx "AffineTransform")])
                                     (Braces (map (placement_expr fixed) shapes)))).
Proof.
  intros NE N. destruct (print_some pr default_shape NE) as (t & T). unfold storeAffineTransform. rewrite T. cbn [obind]. eexists. split; [reflexivity|]. apply read_spelled.
  - apply lexed_done. pose proof (print_lexed pr default_shape t N T) as P. pose proof (lined_lexed _ _ (map_lexed (show_placement fixed) (placement_expr fixed) shapes placement_lexed)) as L.
    eapply lexed_eq; [apply lexed_app; [lit|]; apply lexed_app; [lit|]; apply lexed_app; [exact P|]; apply lexed_app; [lit|]; apply lexed_app; [lit|]; apply lexed_app; [exact L|]; apply lexed_app; [lit|lit]|].
    unfold graphics. generalize (picture (notation plain fixed pr) pr default_shape). intros e. cbn [toks map commas app]. rewrite <- ?app_assoc. cbn [app]. rewrite <- ?app_assoc. reflexivity.
  - unfold graphics. pose proof (plain_picture (notation plain fixed pr) pr default_shape) as PP. revert PP. generalize (picture (notation plain fixed pr) pr default_shape). intros e PP.
    cbn [plain_expr map fold_right]. split; [|exact Logic.I]. split; [tauto|]. apply plain_all. intros s. cbn. tauto.
Qed.
End texts.
