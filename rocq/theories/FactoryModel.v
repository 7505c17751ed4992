(** [src/frontend/legacy/MoveSamplerFactory.cpp], [ParameterUpdaterFactory.cpp] and [TriclinicBoxScalerFactory.cpp]: moves, dynamic parameters and scaling of
    the box in old input files.

    Simplifications:
    - an exception (of any kind) is [None];
    - double: real numbers; [scan] is [operator>>] to a double, [None] if it fails, and then 0 is stored (a number out of range is not modelled);
    - objects are represented by the values they are constructed of. *)
From Coq Require Import Reals ZArith List Bool String.
From Verif Require Import TextModel StringsModel GeomModel ScalingModel InputModel LegacyModel OptModel.
Import ListNotations.
Open Scope Z_scope.

Section Factories.
Variable scan : text -> option (R * text).

(** *** Moves *)
(** MoveSamplerFactory.cpp:23-46; the constructors (RototranslationSampler.cpp:9-20) check again what has been checked here *)
Definition create_rototranslation (l : text) : option move :=
  t <- scan l ;;
  if Rltb 0 (fst t) then
    if isAnythingLeft (snd t) then
      r <- scan (snd t) ;;
      if Rltb 0 (fst r) then
        if isAnythingLeft (snd r) then
          m <- scan (snd r) ;;
          if Rltb 0 (fst m) && Rleb (fst t) (fst m) then Some (Rototranslation (fst t) (Some (fst r)) (fst m)) else None
        else Some (Rototranslation (fst t) (Some (fst r)) 0)
      else None
    else Some (Rototranslation (fst t) None 0)
  else None.
(** MoveSamplerFactory.cpp:47-63 *)
Definition create_translation (l : text) : option move :=
  t <- scan l ;;
  if Rltb 0 (fst t) then
    if isAnythingLeft (snd t) then
      m <- scan (snd t) ;;
      if Rltb 0 (fst m) && Rleb (fst t) (fst m) then Some (Translation (fst t) (fst m)) else None
    else Some (Translation (fst t) 0)
  else None.
(** MoveSamplerFactory.cpp:64-69 *)
Definition create_rotation (l : text) : option move := r <- scan l ;; if Rltb 0 (fst r) then Some (Rotation (fst r)) else None.
(** MoveSamplerFactory.cpp:70-82 *)
Definition create_flip (l : text) : option move :=
  if isAnythingLeft l then n <- extract_size l ;; if Z.ltb 0 (fst n) then Some (Flip (fst n)) else None else Some (Flip 10).
(** MoveSamplerFactory.cpp:17-86 *)
Definition create_move (s : text) : option move :=
  w <- extract_word s ;;
  if text_eqb (fst w) (str "rototranslation") then create_rototranslation (snd w)
  else if text_eqb (fst w) (str "translation") then create_translation (snd w)
  else if text_eqb (fst w) (str "rotation") then create_rotation (snd w)
  else if text_eqb (fst w) (str "flip") then create_flip (snd w)
  else None.

(** *** Dynamic parameters *)
(** Utils.h:70-83, of a word *)
Definition convert_number (w : text) : option R := a <- scan w ;; match skip_ws (snd a) with [] => Some (fst a) | _ => None end.
(** ParameterUpdaterFactory.cpp:17-26, after an extraction which left [l] *)
Definition fully_parsed (l : text) : bool := match skip_ws l with [] => true | _ => false end.
(** PiecewiseDynamicParameter.cpp:13-17 *)
Fixpoint cycles_sorted (l : list (Z * dyn)) : bool := match l with x :: ((y :: _) as l') => negb (fst y <? fst x) && cycles_sorted l' | _ => true end.
Definition make_piecewise (l : list (Z * dyn)) : option dyn :=
  match l with [] => None | x :: _ => if Z.eqb (fst x) 0 && cycles_sorted l then Some (DPiecewise l) else None end.
Fixpoint all_some {A B} (f : A -> option B) (l : list A) : option (list B) :=
  match l with [] => Some [] | x :: l' => y <- f x ;; ys <- all_some f l' ;; Some (y :: ys) end.
(** ParameterUpdaterFactory.cpp:31-90; parameters inside others are shorter texts, so the length of the text bounds the depth of recursion *)
Fixpoint create_parameter_in (fuel : nat) (s : text) : option dyn :=
  match fuel with
  | O => None
  | S f =>
    w <- extract_word (trim s) ;;
    match convert_number (fst w) with
    | Some x => if fully_parsed (snd w) then Some (DConst x) else None
    | None =>
      if text_eqb (fst w) (str "const") then a <- scan (snd w) ;; if fully_parsed (snd a) then Some (DConst (fst a)) else None
      else if text_eqb (fst w) (str "linear") then a <- scan (snd w) ;; b <- scan (snd a) ;; if fully_parsed (snd b) then Some (DLinear (fst b) (fst a)) else None
      else if text_eqb (fst w) (str "exp") then a <- scan (snd w) ;; b <- scan (snd a) ;; if fully_parsed (snd b) then Some (DExp (fst a) (fst b)) else None
      else if text_eqb (fst w) (str "piecewise") then
        ps <- all_some (fun t => c <- extract_size t ;; u <- getline newline (snd c) ;; d <- create_parameter_in f (fst u) ;; Some (fst c, d)) (getlines 44 (snd w)) ;;
        make_piecewise ps
      else None
    end
  end.
Definition create_parameter (s : text) : option dyn := create_parameter_in (S (List.length s)) s.
End Factories.

(** *** Scaling of the box *)
Definition independent_prefix : text := str "independent ".
(** TriclinicBoxScalerFactory.cpp:59-71 *)
Definition create_direction (s : text) : option direction :=
  if text_eqb s (str "isotropic") then d <- dir_and X Y ;; dir_and d Z'
  else if text_eqb s (str "anisotropic x") then d <- dir_and Y Z' ;; Some (dir_or X d)
  else if text_eqb s (str "anisotropic y") then d <- dir_and Z' X ;; Some (dir_or Y d)
  else if text_eqb s (str "anisotropic z") then d <- dir_and X Y ;; Some (dir_or Z' d)
  else if text_eqb s (str "anisotropic xyz") then Some (dir_or (dir_or X Y) Z')
  else parse_direction s.
(** AnisotropicVolumeScaler.cpp:76-82 *)
Definition nonempty (d : direction) : option direction := match d with [] => None | _ => Some d end.
(** TriclinicBoxScalerFactory.cpp:30-73 *)
Definition create_volume_scaler (s : text) (step : R) : option scaler :=
  if text_eqb s (str "delta V") then Some (DeltaV step)
  else
    let independent := startsWith s independent_prefix in
    let l := if independent then match extract_word s with Some r => snd r | None => [] end else s in
    w <- extract_word l ;;
    make <- (if text_eqb (fst w) (str "linear") then Some Linear else if text_eqb (fst w) (str "log") then Some Log else None) ;;
    t <- getline newline (skip_ws (snd w)) ;;
    d0 <- create_direction (fst t) ;;
    d <- nonempty d0 ;;
    Some (make d step independent).
(** TriclinicBoxScalerFactory.cpp:78-94; [Some None]: nullptr, the box is not scaled *)
Definition create_scaler (s : text) (step : R) : option (option scaler) :=
  if text_eqb s (str "disabled") then Some None
  else
    let together := negb (startsWith s independent_prefix) in
    let stripped := if together then s else skipn (List.length independent_prefix) s in
    if text_eqb stripped (str "delta triclinic") then Some (Some (DeltaTriclinic step together))
    else c <- create_volume_scaler s step ;; Some (Some c).
