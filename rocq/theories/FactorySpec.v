(** How moves, dynamic parameters and scaling of the box are written in old input files. *)
From Coq Require Import Reals ZArith List String Permutation Sorting.Sorted.
From Verif Require Import TextModel StringsSpec RamsnapSpec GeomModel ScalingModel ScalingSpec InputModel LegacyModel LegacySpec.
Import ListNotations.
Open Scope Z_scope.

(** White space, a word, and what follows it *)
Definition headed (t name args : text) : Prop := exists b, t = b ++ name ++ args /\ spaces b /\ word_like name /\ stops args.
(** The same with white space at the end left out *)
Definition headed_trimmed (t name args : text) : Prop :=
  exists b e, t = b ++ name ++ args ++ e /\ spaces b /\ spaces e /\ word_like name /\ stops args /\ (args = [] \/ is_space (last args 0) = false).

Section Numbers.
Variable scan : text -> option (R * text).
(** Numbers up to the end *)
Definition only_numbers (t : text) (xs : list R) : Prop := exists r, numbers scan t xs r /\ spaces r.

(** *** Moves; 0 stands for a maximal step which has not been given *)
Definition move_text (t : text) (m : move) : Prop :=
  match m with
  | Rototranslation x rot max =>
    exists args, headed t (str "rototranslation") args /\ (0 < x)%R /\
      match rot with
      | None => max = 0%R /\ only_numbers args [x]
      | Some y => (0 < y)%R /\ ((max = 0%R /\ only_numbers args [x; y]) \/ ((0 < max)%R /\ (x <= max)%R /\ exists r, numbers scan args [x; y; max] r))
      end
  | Translation x max =>
    exists args, headed t (str "translation") args /\ (0 < x)%R /\
      ((max = 0%R /\ only_numbers args [x]) \/ ((0 < max)%R /\ (x <= max)%R /\ exists r, numbers scan args [x; max] r))
  | Rotation y => exists args r, headed t (str "rotation") args /\ (0 < y)%R /\ numbers scan args [y] r
  | Flip n => exists args, headed t (str "flip") args /\ ((spaces args /\ n = 10) \/ (~ spaces args /\ 0 < n /\ exists r, extract_size args = Some (n, r)))
  end.

(** *** Dynamic parameters *)
(** A word which is a number *)
Definition is_number (w : text) (x : R) : Prop := exists r, scan w = Some (x, r) /\ spaces r.
(** Texts separated by commas; after the last one there may be a comma. *)
Definition comma_list (t : text) (ps : list text) : Prop :=
  Forall (Forall (fun c => c <> 44)) ps /\ (t = flat_map (fun p => p ++ [44]) ps \/ (ps <> [] /\ last ps [] <> [] /\ t = joined_by [44] ps)).
(** The first line of a text *)
Definition first_line (t u : text) : Prop := t <> [] /\ Forall (fun c => c <> newline) u /\ (t = u \/ exists r, t = u ++ newline :: r).
Inductive parameter_text : text -> dyn -> Prop :=
| plain_number t w args x : headed_trimmed t w args -> is_number w x -> spaces args -> parameter_text t (DConst x)
| const_text t args x : headed_trimmed t (str "const") args -> (forall y, ~ is_number (str "const") y) -> only_numbers args [x] -> parameter_text t (DConst x)
| linear_text t args initial slope : headed_trimmed t (str "linear") args -> (forall y, ~ is_number (str "linear") y) -> only_numbers args [initial; slope] ->
    parameter_text t (DLinear slope initial)
| exp_text t args initial rate : headed_trimmed t (str "exp") args -> (forall y, ~ is_number (str "exp") y) -> only_numbers args [initial; rate] ->
    parameter_text t (DExp initial rate)
| piecewise_text t args texts ps : headed_trimmed t (str "piecewise") args -> (forall y, ~ is_number (str "piecewise") y) -> comma_list args texts ->
    pieces_text texts ps -> (exists d ps', ps = (0, d) :: ps') -> Sorted Z.le (map fst ps) -> parameter_text t (DPiecewise ps)
with pieces_text : list text -> list (Z * dyn) -> Prop :=
| no_pieces : pieces_text [] []
| one_more_piece t c r u d ts ps : extract_size t = Some (c, r) -> first_line r u -> parameter_text u d -> pieces_text ts ps -> pieces_text (t :: ts) ((c, d) :: ps).
End Numbers.

(** *** Scaling *)
Definition direction_text (t : text) (d : direction) : Prop :=
  (exists gs, In (t, gs) named /\ Forall2 consists gs d) \/
  (exists ps, render ps = t /\ Permutation (ScalingSpec.all_axes ps) [AX; AY; AZ] /\ Forall2 consists (groups ps) d).
(** A word and a direction; something has to be scaled. *)
Definition anisotropic_text (t name : text) (d : direction) : Prop :=
  exists args b u, headed t name args /\ args = b ++ u /\ spaces b /\ ~ stops u /\ d <> [] /\ exists v, first_line u v /\ direction_text v d.
Definition scaler_text (t : text) (step : R) (s : option scaler) : Prop :=
  match s with
  | None => t = str "disabled"
  | Some (DeltaV x) => t = str "delta V" /\ x = step
  | Some (DeltaTriclinic x together) => x = step /\ t = if together then str "delta triclinic" else str "independent delta triclinic"
  | Some (Linear d x independent) => x = step /\ if independent then exists u, t = str "independent " ++ u /\ anisotropic_text u (str "linear") d else anisotropic_text t (str "linear") d
  | Some (Log d x independent) => x = step /\ if independent then exists u, t = str "independent " ++ u /\ anisotropic_text u (str "log") d else anisotropic_text t (str "log") d
  end.
