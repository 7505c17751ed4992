(** C85: orthorhombic arrangements in old input files. *)
From Coq Require Import Reals ZArith List String.
From Verif Require Import TextModel StringsSpec RamsnapSpec GeomModel PbcModel LegacyModel LegacySpec LegacyExamples OrthoModel OrthoSpec FactorySpec LegacyArrangeModel LegacyArrangeSpec LegacyArrangeProofs LegacyArrangeExamples.
Import ListNotations.
Open Scope Z_scope.

(** The size of the box. *)
Theorem C85_box : forall scan t box, parse_box_dimensions scan t = Some box <-> box_text scan t box.
Proof. exact box_iff. Qed.
Print Assumptions C85_box.
Example C85_box_example : box_text digits_scan (str "auto") None.
Proof. exact sample_auto. Qed.

(** Exactly which arrangements written word by word are accepted, and which box and shapes they give. *)
Theorem C85_written : forall scan stod minimal, scanner scan -> forall kind d n bt box b shapes,
  kind = str "orthorhombic" \/ kind = str "lattice" -> good scan stod d -> box_text scan bt box ->
  arrange_packing scan stod minimal n bt (written kind d) = Some (b, shapes) <-> means minimal n box d b shapes.
Proof. exact written_iff. Qed.
Print Assumptions C85_written.
Example C85_written_scanner : scanner digits_scan.
Proof. exact digits_scanner. Qed.
Example C85_written_text : written (str "orthorhombic") sample = str "orthorhombic anticlinic x 1 antipolar z 3 4 5 1 1 2".
Proof. exact sample_text. Qed.
Example C85_written_good : good digits_scan digits_stod sample.
Proof. exact sample_good. Qed.
Example C85_written_means : exists shapes, means (fun _ _ _ _ => None) 2 None sample (V3 3 4 10) shapes.
Proof. exact sample_means. Qed.

(** The polarisation cannot be given before the clinicity. *)
Theorem C85_order_refuted : forall scan stod minimal n bt, arrange_packing scan stod minimal n bt (str "orthorhombic polar x synclinic x 1 2 2 2") = None.
Proof. exact order_matters. Qed.
Print Assumptions C85_order_refuted.

(** Words have to be separated by spaces, not by other white space. *)
Theorem C85_spaces_refuted : forall scan stod minimal n bt, arrange_packing scan stod minimal n bt (str "orthorhombic" ++ [9] ++ str "polar x default") = None.
Proof. exact tab_refused. Qed.
Print Assumptions C85_spaces_refuted.

(** A word after the arrangement changes the clinicity. *)
Theorem C85_clinicity_refuted : forall stod minimal n bt b, box_text digits_scan bt (Some b) ->
  arrange_packing digits_scan stod minimal n bt (str "orthorhombic anticlinic x 1 polar x default synclinic ") =
  match arrange_default (Arranging Ferro AX Synclinic AX 1) n b with Some l => Some (b, l) | None => None end.
Proof. exact other_clinicity. Qed.
Print Assumptions C85_clinicity_refuted.
Example C85_clinicity_box : box_text digits_scan (str "5 6 7") (Some (V3 5 6 7)).
Proof. exact sample_box. Qed.
