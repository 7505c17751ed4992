(** [src/utils/ParseUtils.cpp], [src/utils/ParseUtils.h], XCBodyBuilder::processCommand in [src/geometry/xenocollide/XCBodyBuilder.cpp], and in
    [src/frontend/legacy/ShapeFactory.cpp] the shapes given by fields in old input files.

    Simplifications:
    - an exception (of any kind) is [None];
    - a stream is good if it has not failed and something is left in it;
    - double: real numbers. [scan] is [operator>>] to a double, [None] if it fails; [failed] is the value stored when it fails (0, or the nearest finite
      number if the number is too large); [stod] is std::stod;
    - shapes are represented by the arguments of the constructors of their traits, whose own checks (that all names of points are distinct) are left out. *)
From Coq Require Import Reals ZArith List Bool String.
From Verif Require Import TextModel StringsModel ConfigModel GeomModel GeoModel XcModel OptModel.
Import ListNotations.
Open Scope Z_scope.

(** Literals of C++ *)
Definition str (s : string) : text := map (fun a => Z.of_N (Ascii.N_of_ascii a)) (list_ascii_of_string s).

(** ParseUtils.h:18-29, [extract] is operator>>; it always consumes something, so the length of the text bounds the number of repetitions *)
Section Tokens.
Variables (T : Type) (extract : text -> option (T * text)) (failed : text -> T).
Fixpoint tokens_loop (fuel : nat) (l : text) : option (list T) :=
  match l with
  | [] => Some []
  | _ =>
    match fuel with
    | O => None
    | S f => match extract l with None => Some [failed l] | Some (x, r) => rest <- tokens_loop f (skip_ws r) ;; Some (x :: rest) end
    end
  end.
Definition tokenize (l : text) : option (list T) := let l1 := skip_ws l in tokens_loop (List.length l1) l1.
End Tokens.
(** tokenize<std::string> *)
Definition tokenize_words (l : text) : option (list text) := tokenize text extract_word (fun _ => []) l.

(** ParseUtils.cpp:27-32 *)
Definition append (value token : text) : text := match value with [] => token | _ => value ++ [space] ++ token end.
(** ParseUtils.cpp:18-35 *)
Fixpoint fields_loop (fields tokens : list text) (m : list (text * text)) (curr : option text) : option (list (text * text)) :=
  match tokens with
  | [] => Some m
  | token :: tokens' =>
    if member token fields then
      if existsb (fun e => text_eqb token (fst e)) m then None else fields_loop fields tokens' (map_set token [] m) (Some token)
    else
      match curr with
      | None => if member [] fields then fields_loop fields tokens' (map_set [] (append [] token) m) (Some []) else None
      | Some k => value <- lookup k m ;; fields_loop fields tokens' (map_set k (append value token) m) curr
      end
  end.
(** ParseUtils.cpp:13-37 *)
Definition parseFields (fields tokens : list text) : option (list (text * text)) := fields_loop fields tokens [] None.
(** ParseUtils.cpp:39-44, after an extraction which left [l] *)
Definition isAnythingLeft (l : text) : bool := match l with [] => false | _ => match skip_ws l with [] => false | _ => true end end.

Section Legacy.
Variables (scan : text -> option (R * text)) (failed : text -> R) (stod : text -> option R).

(** *** Commands *)
Definition one (f : R -> command) (l : text) : option command := a <- scan l ;; Some (f (fst a)).
Definition two (f : R -> R -> command) (l : text) : option command := a <- scan l ;; b <- scan (snd a) ;; Some (f (fst a) (fst b)).
Definition three (f : R -> R -> R -> command) (l : text) : option command :=
  a <- scan l ;; b <- scan (snd a) ;; c <- scan (snd b) ;; Some (f (fst a) (fst b) (fst c)).
Definition count (f : nat -> command) (l : text) : option command := a <- extract_size l ;; Some (f (Z.to_nat (fst a))).
(** XCBodyBuilder.cpp:194-294, what is to be done *)
Definition read_command (cmd : text) : option command :=
  let '(name, args) := match extract_word (trim cmd) with Some r => r | None => ([], []) end in
  if text_eqb name (str "cuboid") then three Cuboid args
  else if text_eqb name (str "diff") then Some Diff
  else if text_eqb name (str "disk") then one Disk args
  else if text_eqb name (str "dup") then count Dup args
  else if text_eqb name (str "ellipse") then two Ellipse args
  else if text_eqb name (str "ellipsoid") then three Ellipsoid args
  else if text_eqb name (str "football") then two Football args
  else if text_eqb name (str "move") then three Move args
  else if text_eqb name (str "point") then three Point args
  else if text_eqb name (str "pop") then Some Pop
  else if text_eqb name (str "rectangle") then two Rectangle args
  else if text_eqb name (str "rot") then three Rotate args
  else if text_eqb name (str "saucer") then two Saucer args
  else if text_eqb name (str "segment") then one Segment args
  else if text_eqb name (str "sphere") then one Sphere args
  else if text_eqb name (str "sum") then if isAnythingLeft args then count Sum args else Some (Sum 2)
  else if text_eqb name (str "swap") then Some Swap
  else if text_eqb name (str "wrap") then if isAnythingLeft args then count Wrap args else Some (Wrap 2)
  else None.
(** XCBodyBuilder.cpp:194-294 *)
Definition processCommand (cmd : text) (s : stack) : option stack := c <- read_command cmd ;; run_command c s.
(** A script, ShapeFactory.cpp:180-182 *)
Fixpoint process (commands : list text) (s : stack) : option stack :=
  match commands with [] => Some s | c :: cs => s' <- processCommand c s ;; process cs s' end.

(** *** Shapes *)
(** ShapeFactory.cpp:115-119 *)
Definition has_all_fields (m : list (text * text)) (fields : list text) : bool := forallb (fun f => existsb (fun e => text_eqb f (fst e)) m) fields.
(** ShapeFactory.cpp:121-127 *)
Definition parse_vector_from (l : text) : option (vec * text) :=
  a <- scan l ;; b <- scan (snd a) ;; c <- scan (snd b) ;; Some (V3 (fst a) (fst b) (fst c), snd c).
Definition parse_vector (coords : text) : option vec := v <- parse_vector_from coords ;; Some (fst v).
(** ShapeFactory.cpp:129-133 *)
Definition parse_axis (coords : text) : option vec := axis <- parse_vector coords ;; if Rleb (/ 10 ^ 8) (vnorm axis) then normalized axis else None.
(** ShapeFactory.cpp:135-148; a new stream is good even if it is empty *)
Fixpoint points_loop (fuel : nat) (l : text) : option points :=
  match fuel with
  | O => None
  | S f =>
    name <- extract_word l ;; pos <- parse_vector_from (snd name) ;;
    match skip_ws (snd pos) with
    | [] => Some [(fst name, fst pos)]
    | l' => rest <- points_loop f l' ;; Some ((fst name, fst pos) :: rest)
    end
  end.
Definition parse_named_points (l : text) : option points := points_loop (S (List.length l)) l.

(** What all the shapes have, ShapeFactory.cpp:150-172 *)
Record common := Common { co_fields : list (text * text); co_primary : vec; co_secondary : vec; co_origin : vec; co_volume : R; co_points : points }.
Definition parse_generic_shape_traits (l : text) (requiredCustom optionalCustom : list text) : option common :=
  let requiredFields := [str "primaryAxis"; str "secondaryAxis"; str "geometricOrigin"; str "volume"] ++ requiredCustom in
  let allFields := requiredFields ++ [str "namedPoints"] ++ optionalCustom in
  tokens <- tokenize_words l ;; m <- parseFields allFields tokens ;;
  if has_all_fields m requiredFields then
    pat <- lookup (str "primaryAxis") m ;; pa <- parse_axis pat ;;
    sat <- lookup (str "secondaryAxis") m ;; sa <- parse_axis sat ;;
    got <- lookup (str "geometricOrigin") m ;; go <- parse_vector got ;;
    vt <- lookup (str "volume") m ;; volume <- stod vt ;;
    if Rltb 0 volume then
      match lookup (str "namedPoints") m with
      | None => Some (Common m pa sa go volume [])
      | Some t => ps <- parse_named_points t ;; Some (Common m pa sa go volume ps)
      end
    else None
  else None.

(** ShapeFactory.cpp:174-188 *)
Definition parse_generic_xeno_collide (l : text) : option (common * xc) :=
  c <- parse_generic_shape_traits l [str "script"] [] ;; script <- lookup (str "script") (co_fields c) ;;
  match explode script 38 with
  | [] => None
  | commands => s <- process commands [] ;; g <- releaseCollideGeometry s ;; Some (c, g)
  end.
(** ShapeFactory.cpp:197-202, the radius is the first one *)
Fixpoint spheres_loop (ts : list R) : option (list (vec * R)) :=
  match ts with
  | [] => Some []
  | r :: x :: y :: z :: ts' => if Rltb 0 r then rest <- spheres_loop ts' ;; Some ((V3 x y z, r) :: rest) else None
  | _ => None
  end.
(** ShapeFactory.cpp:190-206 *)
Definition parse_polysphere_geometry (l : text) : option (common * list (vec * R)) :=
  c <- parse_generic_shape_traits l [str "spheres"] [] ;; t <- lookup (str "spheres") (co_fields c) ;;
  spheres <- tokenize R scan failed t ;;
  match spheres with [] => None | _ => data <- spheres_loop spheres ;; Some (c, data) end.
(** SpherocylinderData: position, half of the axis, radius; ShapeFactory.cpp:218-222, 237-238 *)
Definition spherocylinder (r : R) (beg fin : vec) : vec * vec * R :=
  let pos := vscale (/ 2) (vadd beg fin) in (pos, vsub fin pos, r).
(** ShapeFactory.cpp:214-216 *)
Fixpoint chain_points (ts : list R) : option (list vec) :=
  match ts with [] => Some [] | x :: y :: z :: ts' => rest <- chain_points ts' ;; Some (V3 x y z :: rest) | _ => None end.
(** ShapeFactory.cpp:223-224 *)
Fixpoint links (r : R) (ps : list vec) : list (vec * vec * R) :=
  match ps with p :: ((q :: _) as ps') => spherocylinder r p q :: links r ps' | _ => [] end.
(** ShapeFactory.cpp:208-225 *)
Definition parse_chain (t : text) : option (list (vec * vec * R)) :=
  ts <- tokenize R scan failed t ;;
  if Nat.leb 7 (List.length ts) then
    match ts with
    | r :: ps => if Rltb 0 r then positions <- chain_points ps ;; Some (links r positions) else None
    | [] => None
    end
  else None.
(** ShapeFactory.cpp:232-241 *)
Fixpoint spherocylinders_loop (ts : list R) : option (list (vec * vec * R)) :=
  match ts with
  | [] => Some []
  | r :: x :: y :: z :: x' :: y' :: z' :: ts' =>
    if Rltb 0 r then rest <- spherocylinders_loop ts' ;; Some (spherocylinder r (V3 x y z) (V3 x' y' z') :: rest) else None
  | _ => None
  end.
(** ShapeFactory.cpp:227-242 *)
Definition parse_spherocylinders (t : text) : option (list (vec * vec * R)) :=
  ts <- tokenize R scan failed t ;; match ts with [] => None | _ => spherocylinders_loop ts end.
(** ShapeFactory.cpp:244-258 *)
Definition parse_polyspherocylinder (l : text) : option (common * list (vec * vec * R)) :=
  c <- parse_generic_shape_traits l [] [str "chain"; str "spherocylinders"] ;;
  chain <- match lookup (str "chain") (co_fields c) with None => Some [] | Some t => parse_chain t end ;;
  rest <- match lookup (str "spherocylinders") (co_fields c) with None => Some [] | Some t => parse_spherocylinders t end ;;
  match chain ++ rest with [] => None | data => Some (c, data) end.
End Legacy.
