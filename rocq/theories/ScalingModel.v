(** [src/frontend/ScalingDirectionParser.cpp], [src/core/volume_scalers/*] and directions in [src/frontend/matchers/BoxScalerMatcher.cpp]. *)
From Coq Require Import ZArith Reals List Bool.
From Verif Require Import OptModel TextModel GeomModel BoxModel.
Import ListNotations.

(** std::array<bool, 3> *)
Definition mask := (bool * bool * bool)%type.
Definition mask_get (m : mask) (a : axis) : bool := let '(x, y, z) := m in match a with AX => x | AY => y | AZ => z end.
Definition mask_or (m n : mask) : mask := let '(x, y, z) := m in let '(x', y', z') := n in (x || x', y || y', z || z').
Definition mask_eqb (m n : mask) : bool := let '(x, y, z) := m in let '(x', y', z') := n in Bool.eqb x x' && Bool.eqb y y' && Bool.eqb z z'.
(** AnisotropicVolumeScaler.h:42-62: alternatives of directions scaled together *)
Definition direction := list mask.
(** AnisotropicVolumeScaler.cpp:13-15 *)
Definition axis_mask (a : axis) : mask := match a with AX => (true, false, false) | AY => (false, true, false) | AZ => (false, false, true) end.
(** AnisotropicVolumeScaler.cpp:35-43 *)
Definition dir_or (d e : direction) : direction := fold_left (fun r m => if existsb (mask_eqb m) r then r else r ++ [m]) e d.
(** AnisotropicVolumeScaler.cpp:45-74; [None]: failed precondition *)
Definition dir_and (d e : direction) : option direction :=
  match d, e with
  | [], [n] => Some [n]
  | [m], [] => Some [m]
  | [m], [n] => Some [mask_or m n]
  | _, _ => None
  end.

(** ScalingDirectionParser.cpp:11-22 and 24-31: a letter which is not an axis, or an axis used for the second time: exception *)
Definition char_axis (c : Z) : option axis := if Z.eqb c 120 then Some AX else if Z.eqb c 121 then Some AY else if Z.eqb c 122 then Some AZ else None.
Definition registerScalingDirection (c : Z) (used : mask) : option (axis * mask) :=
  a <- char_axis c ;; if mask_get used a then None else Some (a, mask_or used (axis_mask a)).
(** ScalingDirectionParser.cpp:33-40: what is before the closing bracket, and what follows it; [None]: there is none, exception *)
Fixpoint parseBrackets (closing : Z) (l : text) : option (text * text) :=
  match l with
  | [] => None
  | c :: l' => if Z.eqb c closing then Some ([], l') else r <- parseBrackets closing l' ;; Some (c :: fst r, snd r)
  end.
(** ScalingDirectionParser.cpp:59-65: directions in round brackets *)
Fixpoint parseGroup (l : text) (used : mask) (group : direction) : option (mask * direction) :=
  match l with
  | [] => Some (used, group)
  | c :: l' => r <- registerScalingDirection c used ;; (g <- dir_and group [axis_mask (fst r)] ;; parseGroup l' (snd r) g)
  end.
(** ScalingDirectionParser.cpp:69-71 *)
Fixpoint registerAll (l : text) (used : mask) : option mask :=
  match l with [] => Some used | c :: l' => r <- registerScalingDirection c used ;; registerAll l' (snd r) end.
(** ScalingDirectionParser.cpp:47-75: the loop, which makes at most as many steps as there are characters *)
Fixpoint parseLoop (fuel : nat) (l : text) (used : mask) (dir : direction) : option (mask * direction) :=
  match fuel, l with
  | _, [] => Some (used, dir)
  | O, _ => None
  | S fuel', c :: l' =>
    match char_axis c with
    | Some _ => r <- registerScalingDirection c used ;; parseLoop fuel' l' (snd r) (dir_or dir [axis_mask (fst r)])
    | None =>
      if Z.eqb c 40 then
        b <- parseBrackets 41 l' ;; (g <- parseGroup (fst b) used [] ;; parseLoop fuel' (snd b) (fst g) (dir_or dir (snd g)))
      else if Z.eqb c 91 then
        b <- parseBrackets 93 l' ;; (u <- registerAll (fst b) used ;; parseLoop fuel' (snd b) u dir)
      else None
    end
  end.
(** ScalingDirectionParser.cpp:42-81 *)
Definition parse_direction (s : text) : option direction :=
  r <- parseLoop (length s) s (false, false, false) [] ;; if mask_eqb (fst r) (true, true, true) then Some (snd r) else None.

(** BoxScalerMatcher.cpp:35-58; [None]: the text does not match, or exception *)
Definition isotropic_name : text := [105; 115; 111; 116; 114; 111; 112; 105; 99]%Z.
Definition anisotropic_name (s : text) : text := [97; 110; 105; 115; 111; 116; 114; 111; 112; 105; 99; 32]%Z ++ s.
Definition countc (c : Z) (s : text) : nat := length (filter (Z.eqb c) s).
Definition manualDirection (s : text) : option direction :=
  if forallb (fun c => existsb (Z.eqb c) [120; 121; 122; 40; 41; 91; 93]%Z) s && Nat.eqb (countc 120 s) 1 && Nat.eqb (countc 121 s) 1 && Nat.eqb (countc 122 s) 1
  then parse_direction s else None.
Definition X : direction := [axis_mask AX].
Definition Y : direction := [axis_mask AY].
Definition Z' : direction := [axis_mask AZ].
Definition scalingDirection (s : text) : option direction :=
  if text_eqb s isotropic_name then d <- dir_and X Y ;; dir_and d Z'
  else if text_eqb s (anisotropic_name [120]%Z) then d <- dir_and Y Z' ;; Some (dir_or X d)
  else if text_eqb s (anisotropic_name [121]%Z) then d <- dir_and Z' X ;; Some (dir_or Y d)
  else if text_eqb s (anisotropic_name [122]%Z) then d <- dir_and X Y ;; Some (dir_or Z' d)
  else if text_eqb s (anisotropic_name [120; 121; 122]%Z) then Some (dir_or (dir_or X Y) Z')
  else manualDirection s.

Open Scope R_scope.
(** A sampler of factors: directions, heights of the box and a random number from [-step, step]; [None]: failed postcondition. *)
Definition factor_sampler := mask -> vec -> R -> option vec.
(** LogScalingFactorSampler.cpp:8-19 *)
Definition log_sampler : factor_sampler := fun m _ u =>
  let f a := if mask_get m a then exp u else 1 in Some (V3 (f AX) (f AY) (f AZ)).
(** LinearScalingFactorSampler.cpp:9-23 *)
Definition linear_sampler : factor_sampler := fun m heights u =>
  let f a := if mask_get m a then (vget heights a + u) / vget heights a else 1 in
  if Rltb 0 (f AX) && Rltb 0 (f AY) && Rltb 0 (f AZ) then Some (V3 (f AX) (f AY) (f AZ)) else None.
Definition vmul (v w : vec) : vec := V3 (vx v * vx w) (vy v * vy w) (vz v * vz w).
(** AnisotropicVolumeScaler.cpp:76-82: the constructor; [None]: failed precondition *)
Record anisotropic := Anisotropic { an_sampler : factor_sampler; an_direction : direction; an_independent : bool }.
Definition make_anisotropic (sampler : factor_sampler) (dir : direction) (independent : bool) : option anisotropic :=
  match dir with [] => None | _ => Some (Anisotropic sampler dir independent) end.
(** AnisotropicVolumeScaler.cpp:18-33; [choice] is the random index of an alternative, [steps k] the k-th random step *)
Fixpoint sample_all (sampler : factor_sampler) (dirs : direction) (heights factors : vec) (k : nat) (steps : nat -> R) : option vec :=
  match dirs with
  | [] => Some factors
  | m :: dirs' => f <- sampler m heights (steps k) ;; sample_all sampler dirs' heights (vmul factors f) (S k) steps
  end.
Definition sampleScalingFactors (s : anisotropic) (heights : vec) (choice : nat) (steps : nat -> R) : option vec :=
  if an_independent s && Nat.ltb 1 (length (an_direction s)) then
    m <- nth_error (an_direction s) choice ;; an_sampler s m heights (steps O)
  else sample_all (an_sampler s) (an_direction s) heights (V3 1 1 1) O steps.
(** std::cbrt *)
Definition real_cbrt (x : R) : R := if Rltb 0 x then Rpower x (/ 3) else if Rltb x 0 then - Rpower (- x) (/ 3) else 0.
(** DeltaVolumeScaler.cpp:10-19; [deltaV] is the random number from [-step, step] *)
Definition delta_factors (heights : vec) (deltaV : R) : vec :=
  let currentV := vx heights * vy heights * vz heights in
  let factor := real_cbrt ((deltaV + currentV) / currentV) in V3 factor factor factor.
(** TriclinicAdapter.h:27-33 *)
Definition heights (b : box) : vec := V3 (box_height b AX) (box_height b AY) (box_height b AZ).
Definition adapter_update (sample : vec -> option vec) (b : box) : option box := f <- sample (heights b) ;; box_scale_sides f b.
(** TriclinicDeltaScaler.cpp:7-25; [steps] are the random numbers, [choice] the random side; [None]: exception of the inversion of the matrix *)
Definition triclinic_update (together : bool) (choice : axis) (steps : axis -> axis -> R) (b : box) : option box :=
  box_of_matrix (mmake (fun i j => mget (dims b) i j + (if together || (match j, choice with AX, AX | AY, AY | AZ, AZ => true | _, _ => false end) then steps i j else 0))).
