(** Examples for orthorhombic arrangements in old input files. *)
From Coq Require Import Reals ZArith List Bool String Lia Lra.
From Verif Require Import TextModel TextProofs StringsSpec StringsProofs RamsnapSpec GeomModel PbcModel LoadModel LegacyModel LegacySpec LegacyProofs LegacyExamples OrthoModel OrthoSpec OrthoProofs OrthoFinalProofs OrthoExamples FactorySpec FactoryProofs LegacyArrangeModel LegacyArrangeSpec LegacyArrangeProofs OptModel.
Import ListNotations.
Open Scope Z_scope.

Definition digits_number (z : Z) : number := Number (decimal z) (IZR z).
Definition digits_size (z : Z) : size := Size (decimal z) z.
Lemma one_to_nine z : 1 <= z <= 9 -> plain (decimal z) /\ digits_stod (decimal z) = Some (IZR z).
Proof. intros H. assert (z = 1 \/ z = 2 \/ z = 3 \/ z = 4 \/ z = 5 \/ z = 6 \/ z = 7 \/ z = 8 \/ z = 9) as D by lia. decompose [or] D; subst; (split; [vm_compute; repeat split; discriminate|vm_compute; reflexivity]). Qed.
Lemma digits_good z : 1 <= z <= 9 -> good_number digits_scan digits_stod (digits_number z).
Proof. intros H. destruct (one_to_nine z H). split; [apply digits_numeral; lia|split; assumption]. Qed.
Lemma digits_good_size z : 1 <= z <= 9 -> good_size (digits_size z).
Proof.
  intros H. destruct (one_to_nine z H) as (P & _). destruct (digits_numeral z ltac:(lia)) as (W & _). split; [exact W|]. split; [exact P|].
  intros l S. cbn [size_word amount digits_size]. apply extract_decimal; [lia|]. destruct l as [|c l]; [exact Logic.I|]. cbn in S |- *. destruct (is_digit c) eqn:D; [|reflexivity]. apply digit_not_space in D. congruence.
Qed.
Definition sample : arrangement := Arrangement (Some (true, AX, digits_number 1)) (Some (true, AZ)) (cells_layout (digits_number 3) (digits_number 4) (digits_number 5) (digits_size 1) (digits_size 1) (digits_size 2)).
Lemma sample_text : written (str "orthorhombic") sample = str "orthorhombic anticlinic x 1 antipolar z 3 4 5 1 1 2". Proof. vm_compute. reflexivity. Qed.
Lemma sample_good : good digits_scan digits_stod sample.
Proof. split; [apply digits_good; lia|]. cbn [sample laid good_layout]. split; [apply digits_good; lia|]. split; [apply digits_good; lia|]. split; [apply digits_good; lia|]. split; [apply digits_good_size; lia|]. split; apply digits_good_size; lia. Qed.
Lemma sample_auto : box_text digits_scan (str "auto") None.
Proof. exists []. apply headed_iff. reflexivity. Qed.
Lemma sample_means : exists shapes, means (fun _ _ _ _ => None) 2 None sample (V3 3 4 10) shapes.
Proof.
  assert (F : fits (numbers_of (digits_size 1) (digits_size 1) (digits_size 2)) (V3 3 4 5) (V3 3 4 10)).
  { intros []; unfold numbers_of; cbn [digits_size amount vget vx vy vz]; [change (Z.to_nat 1) with 1%nat|change (Z.to_nat 1) with 1%nat|change (Z.to_nat 2) with 2%nat]; (split; [lia|]); cbn [INR]; lra. }
  destruct (arrange_accepts (model_of sample) 2 _ _ _ ltac:(lia) F) as (l & E). { intros _. exists 1%nat. reflexivity. }
  exists l. apply means_iff. split; [discriminate|]. right. eexists. eexists. split; [|split; [|exact E]].
  - split; [reflexivity|]. cbn [sample laid value digits_number]. split; [lra|]. split; [lra|]. split; [lra|]. split; [reflexivity|]. right. split; [reflexivity|].
    intros []; unfold numbers_of; cbn [digits_size amount vget vx vy vz]; [change (Z.to_nat 1) with 1%nat|change (Z.to_nat 1) with 1%nat|change (Z.to_nat 2) with 2%nat]; cbn [INR]; lra.
  - vm_compute. lia.
Qed.

(** *** What is not as it should be *)
Section Any.
Variable scan : text -> option (R * text).
Variable stod : text -> option R.
Variable minimal : arranging -> nat -> (axis -> nat) -> text -> option vec.
Lemma order_matters n bt : arrange_packing scan stod minimal n bt (str "orthorhombic polar x synclinic x 1 2 2 2") = None.
Proof.
  unfold arrange_packing. change (extract_word (str "orthorhombic polar x synclinic x 1 2 2 2")) with (Some (str "orthorhombic", str " polar x synclinic x 1 2 2 2")). cbn [obind fst snd].
  change (text_eqb (str "orthorhombic") (str "orthorhombic") || text_eqb (str "orthorhombic") (str "lattice")) with true. cbv iota. destruct (parse_box_dimensions scan bt) as [box|]; [|reflexivity]. cbn [obind].
  unfold arrange_orthorhombic_shapes, parse_tilt. change (occurs (str " synclinic ") (str "orthorhombic polar x synclinic x 1 2 2 2")) with true. cbv iota.
  change (extract_word (str " polar x synclinic x 1 2 2 2")) with (Some (str "polar", str " x synclinic x 1 2 2 2")). cbn [obind fst snd]. change (extract_word (str " x synclinic x 1 2 2 2")) with (Some (str "x", str " synclinic x 1 2 2 2")). cbn [obind fst snd].
  destruct (scan (str " synclinic x 1 2 2 2")); reflexivity.
Qed.
Lemma tab_refused n bt : arrange_packing scan stod minimal n bt (str "orthorhombic" ++ [9] ++ str "polar x default") = None.
Proof.
  unfold arrange_packing. change (extract_word (str "orthorhombic" ++ [9] ++ str "polar x default")) with (Some (str "orthorhombic", [9] ++ str "polar x default")). cbn [obind fst snd].
  change (text_eqb (str "orthorhombic") (str "orthorhombic") || text_eqb (str "orthorhombic") (str "lattice")) with true. cbv iota. destruct (parse_box_dimensions scan bt) as [box|]; reflexivity.
Qed.
End Any.
Lemma other_clinicity stod minimal n bt b : box_text digits_scan bt (Some b) ->
  arrange_packing digits_scan stod minimal n bt (str "orthorhombic anticlinic x 1 polar x default synclinic ") =
  match arrange_default (Arranging Ferro AX Synclinic AX 1) n b with Some l => Some (b, l) | None => None end.
Proof. intros H. apply box_iff in H. unfold arrange_packing. change (extract_word (str "orthorhombic anticlinic x 1 polar x default synclinic ")) with (Some (str "orthorhombic", str " anticlinic x 1 polar x default synclinic ")). cbn [obind fst snd].
  change (text_eqb (str "orthorhombic") (str "orthorhombic") || text_eqb (str "orthorhombic") (str "lattice")) with true. cbv iota. rewrite H. cbn [obind]. reflexivity.
Qed.
Lemma sample_box : box_text digits_scan (str "5 6 7") (Some (V3 5 6 7)).
Proof.
  split; [rewrite <- occurs_iff; vm_compute; discriminate|]. cbn [vx vy vz]. split; [lra|]. split; [lra|]. split; [lra|]. exists [].
  apply (one_more_number digits_scan _ _ (str " 6 7")); [reflexivity|]. apply (one_more_number digits_scan _ _ (str " 7")); [reflexivity|]. apply (one_more_number digits_scan _ _ []); [reflexivity|]. constructor.
Qed.
