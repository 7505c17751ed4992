(** C84: moves, dynamic parameters and scaling of the box in old input files. *)
From Coq Require Import Reals ZArith List String.
From Verif Require Import TextModel StringsModel StringsSpec RamsnapSpec GeomModel ScalingModel ScalingSpec InputModel LegacyModel LegacySpec LegacyExamples FactoryModel FactorySpec FactoryProofs FactoryFinalProofs FactoryExamples.
Import ListNotations.
Open Scope Z_scope.

(** Which texts are moves, and which moves they are. *)
Theorem C84_move : forall scan, scanner scan -> forall t m, create_move scan t = Some m <-> move_text scan t m.
Proof. exact move_iff. Qed.
Print Assumptions C84_move.
Example C84_move_example : create_move digits_scan (str "rototranslation 1 2 3") = Some (Rototranslation 1 (Some 2%R) 3) /\ create_move digits_scan (str "rotation 1 2") = Some (Rotation 1) /\ create_move digits_scan (str "translation 2 1") = None.
Proof. exact steps_sample. Qed.
Example C84_move_scanner : scanner digits_scan.
Proof. exact digits_scanner. Qed.
Example C84_flip_example : create_move digits_scan (str " flip 5 times") = Some (Flip 5) /\ create_move digits_scan (str "flip ") = Some (Flip 10) /\ create_move digits_scan (str "flip -18446744073709551615") = Some (Flip 1) /\ create_move digits_scan (str "jump 1") = None.
Proof. exact moves_sample. Qed.

(** Which texts are dynamic parameters, and which parameters they are. *)
Theorem C84_parameter : forall scan t d, create_parameter scan t = Some d <-> parameter_text scan t d.
Proof. exact parameter_iff. Qed.
Print Assumptions C84_parameter.
Example C84_parameter_example : create_parameter digits_scan (str "piecewise 0 5, 10 linear 1 2 , 20 exp 3 1") = Some (DPiecewise [(0, DConst 5); (10, DLinear 2 1); (20, DExp 3 1)]) /\
  create_parameter digits_scan (str "7") = Some (DConst 7) /\ create_parameter digits_scan (str "const 7 8") = None /\ create_parameter digits_scan (str "piecewise 5 1") = None /\
  create_parameter digits_scan (str "piecewise 0 piecewise 0 1, 5 2") = Some (DPiecewise [(0, DPiecewise [(0, DConst 1)]); (5, DConst 2)]).
Proof. exact parameter_sample. Qed.

(** A parameter of several pieces inside another one cannot be written: it has always a single piece. *)
Theorem C84_nested : forall scan t ps c qs, create_parameter scan t = Some (DPiecewise ps) -> In (c, DPiecewise qs) ps -> List.length qs = 1%nat.
Proof. exact nested_one. Qed.
Print Assumptions C84_nested.

(** Which texts are scalings of the box, and which ones. *)
Theorem C84_scaler : forall t step s, create_scaler t step = Some s <-> scaler_text t step s.
Proof. exact scaler_iff. Qed.
Print Assumptions C84_scaler.
Example C84_scaler_example : forall step, create_scaler (str "independent log (xy)z") step = Some (Some (Log [(true, true, false); (false, false, true)] step true)) /\
  create_scaler (str "linear [xyz]") step = None /\ create_scaler (str "independent delta V") step = None.
Proof. exact scaler_sample. Qed.

(** Directions are the same as in new input files. *)
Theorem C84_direction : forall s, create_direction s = scalingDirection s.
Proof. exact direction_same. Qed.
Print Assumptions C84_direction.

(** What follows the numbers of a move is not always refused. *)
Theorem C84_ignored_refuted : ~ (forall scan t m ws, scanner scan -> create_move scan t = Some (Rotation m) -> words_of t ws -> List.length ws = 2%nat).
Proof. exact ignored_move. Qed.
Print Assumptions C84_ignored_refuted.

(** A negative number of moves between flips is not always refused. *)
Theorem C84_negative_refuted : ~ (forall scan w n, create_move scan (str "flip -" ++ w) <> Some (Flip n)).
Proof. exact negative_flip. Qed.
Print Assumptions C84_negative_refuted.
