(** [src/frontend/matchers/GenericConvexGeometryMatcher.cpp] and, in [src/frontend/matchers/ShapeMatcher.cpp], the class generic_convex: how convex
    bodies are described in input files. Matchers are those of MatchModel and InputModel, the body builder is XcModel.

    Simplifications:
    - a script (a function which is given a builder) is the list of commands it gives to the builder;
    - RecursiveMatcher (src/pyon/RecursiveMatcher.h): the recursion is bounded by the depth of what is matched;
    - double: real numbers; the value of a text of a float is given by [of_float];
    - an exception thrown when a value is mapped gives [ABad];
    - GenericXenoCollideTraits is represented by the arguments of its constructor. *)
From Coq Require Import Reals ZArith List Bool String.
From Verif Require Import TextModel StringsModel GeomModel PyonModel MatchModel GeoModel XcModel InputModel OptModel.
Import ListNotations.
Open Scope Z_scope.

(** GenericXenoCollideTraits, ShapeMatcher.cpp:437-439 *)
Record convex_shape := ConvexShape { cx_geometry : xc; cx_primary : option vec; cx_secondary : option vec; cx_origin : vec; cx_volume : R; cx_points : points }.

Section Convex.
Variable of_float : list Z -> R.
(** Any: positions are [AArr], scripts are [AShape (Some _)], shapes are [AObs], named points are [ABulk], the empty one is [ADisabled] *)
Notation any := (@any vec (list command) convex_shape points).
Notation mt := (matcher any).
Notation cdata := (class_data any).
Notation real_m := (@InputModel.real_m vec (list command) convex_shape points of_float).
Definition script (cs : list command) : any := AShape (Some cs).
Definition as_script (v : any) : option (list command) := o <- as_shape v ;; o.

(** GenericConvexGeometryMatcher.cpp:29-30: position and rotation; mapToVector *)
Definition triple (l : list any) : option vec := xs <- as_all as_real l ;; match xs with [x; y; z] => Some (V3 x y z) | _ => None end.
Definition vector_m : mt := array_m (real_m [] AReal) [size_three] (fun l => v <- triple l ;; Some (AArr v)).
Definition size_m : mt := real_m [realPositive] AReal.
Definition zeros : node := NArray [NInt 0; NInt 0; NInt 0].
(** GenericConvexGeometryMatcher.cpp:297-299 *)
Definition is_non_zero (v : vec) : bool := negb (Reqb (vx v) 0 && Reqb (vy v) 0 && Reqb (vz v) 0).
(** What is done with each primitive after it is made, GenericConvexGeometryMatcher.cpp:55-57 *)
Definition placing (pos rot : vec) : list command :=
  Move (vx pos) (vy pos) (vz pos) :: (if is_non_zero rot then [Rotate (vx rot) (vy rot) (vz rot)] else []).
(** GenericConvexGeometryMatcher.cpp:33-42 *)
Definition point_class : mt :=
  class_m "point" [required "pos" vector_m] None None [] (fun d => p <- as_arr (get d "pos") ;; Some (script [Point (vx p) (vy p) (vz p)])).
(** GenericConvexGeometryMatcher.cpp:44-60 *)
Definition segment_class : mt :=
  class_m "segment" [required "l" size_m; optional "pos" vector_m zeros; optional "rot" vector_m zeros] None None []
    (fun d => l <- as_real (get d "l") ;; pos <- as_arr (get d "pos") ;; rot <- as_arr (get d "rot") ;; Some (script (Segment l :: placing pos rot))).
(** GenericConvexGeometryMatcher.cpp:62-80 *)
Definition rectangle_class : mt :=
  class_m "rectangle" [required "ax" size_m; required "ay" size_m; optional "pos" vector_m zeros; optional "rot" vector_m zeros] None None []
    (fun d => x <- as_real (get d "ax") ;; y <- as_real (get d "ay") ;; pos <- as_arr (get d "pos") ;; rot <- as_arr (get d "rot") ;;
              Some (script (Rectangle x y :: placing pos rot))).
(** GenericConvexGeometryMatcher.cpp:82-102 *)
Definition cuboid_class : mt :=
  class_m "cuboid" [required "ax" size_m; required "ay" size_m; required "az" size_m; optional "pos" vector_m zeros; optional "rot" vector_m zeros] None None []
    (fun d => x <- as_real (get d "ax") ;; y <- as_real (get d "ay") ;; z <- as_real (get d "az") ;; pos <- as_arr (get d "pos") ;; rot <- as_arr (get d "rot") ;;
              Some (script (Cuboid x y z :: placing pos rot))).
(** GenericConvexGeometryMatcher.cpp:104-120 *)
Definition disk_class : mt :=
  class_m "disk" [required "r" size_m; optional "pos" vector_m zeros; optional "rot" vector_m zeros] None None []
    (fun d => r <- as_real (get d "r") ;; pos <- as_arr (get d "pos") ;; rot <- as_arr (get d "rot") ;; Some (script (Disk r :: placing pos rot))).
(** GenericConvexGeometryMatcher.cpp:122-134 *)
Definition sphere_class : mt :=
  class_m "sphere" [required "r" size_m; optional "pos" vector_m zeros] None None []
    (fun d => r <- as_real (get d "r") ;; pos <- as_arr (get d "pos") ;; Some (script [Sphere r; Move (vx pos) (vy pos) (vz pos)])).
(** GenericConvexGeometryMatcher.cpp:136-154 *)
Definition ellipse_class : mt :=
  class_m "ellipse" [required "rx" size_m; required "ry" size_m; optional "pos" vector_m zeros; optional "rot" vector_m zeros] None None []
    (fun d => x <- as_real (get d "rx") ;; y <- as_real (get d "ry") ;; pos <- as_arr (get d "pos") ;; rot <- as_arr (get d "rot") ;;
              Some (script (Ellipse x y :: placing pos rot))).
(** GenericConvexGeometryMatcher.cpp:156-176 *)
Definition ellipsoid_class : mt :=
  class_m "ellipsoid" [required "rx" size_m; required "ry" size_m; required "rz" size_m; optional "pos" vector_m zeros; optional "rot" vector_m zeros] None None []
    (fun d => x <- as_real (get d "rx") ;; y <- as_real (get d "ry") ;; z <- as_real (get d "rz") ;; pos <- as_arr (get d "pos") ;; rot <- as_arr (get d "rot") ;;
              Some (script (Ellipsoid x y z :: placing pos rot))).
(** GenericConvexGeometryMatcher.cpp:178-200 *)
Definition saucer_class : mt :=
  class_m "saucer" [required "r" size_m; required "l" size_m; optional "pos" vector_m zeros; optional "rot" vector_m zeros] None None
    [(fun d => truth (l <- as_real (get d "l") ;; r <- as_real (get d "r") ;; Some (Rleb l (2 * r))))]
    (fun d => r <- as_real (get d "r") ;; l <- as_real (get d "l") ;; pos <- as_arr (get d "pos") ;; rot <- as_arr (get d "rot") ;;
              Some (script (Saucer r l :: placing pos rot))).
(** GenericConvexGeometryMatcher.cpp:202-224 *)
Definition football_class : mt :=
  class_m "football" [required "r" size_m; required "l" size_m; optional "pos" vector_m zeros; optional "rot" vector_m zeros] None None
    [(fun d => truth (l <- as_real (get d "l") ;; r <- as_real (get d "r") ;; Some (Rleb (2 * r) l)))]
    (fun d => r <- as_real (get d "r") ;; l <- as_real (get d "l") ;; pos <- as_arr (get d "pos") ;; rot <- as_arr (get d "rot") ;;
              Some (script (Football l r :: placing pos rot))).
Definition at_least_two {A} (l : list A) : bool := Nat.leb 2 (List.length l).
(** GenericConvexGeometryMatcher.cpp:226-237 *)
Definition sum_class (recursion : mt) : mt :=
  class_m "sum" [] (Some (ArrayMatcher any (Some recursion) [at_least_two])) None []
    (fun d => l <- as_all as_script (cd_args any d) ;; Some (script (List.concat l ++ [Sum (List.length l)]))).
(** GenericConvexGeometryMatcher.cpp:239-252 *)
Definition diff_class (recursion : mt) : mt :=
  class_m "diff" [required "g1" recursion; required "g2" recursion] None None []
    (fun d => s1 <- as_script (get d "g1") ;; s2 <- as_script (get d "g2") ;; Some (script (s1 ++ s2 ++ [Diff]))).
(** GenericConvexGeometryMatcher.cpp:254-265 *)
Definition wrap_class (recursion : mt) : mt :=
  class_m "wrap" [] (Some (ArrayMatcher any (Some recursion) [at_least_two])) None []
    (fun d => l <- as_all as_script (cd_args any d) ;; Some (script (List.concat l ++ [Wrap (List.length l)]))).
(** GenericConvexGeometryMatcher.cpp:267-281 *)
Definition script_a (recursion : mt) : alternative any :=
  or_ (or_ (or_ (or_ (or_ (or_ (or_ (or_ (or_ (or_ (or_ (or_ (alone point_class) segment_class) rectangle_class) cuboid_class) disk_class) sphere_class)
    ellipse_class) ellipsoid_class) saucer_class) football_class) (sum_class recursion)) (diff_class recursion)) (wrap_class recursion).
(** How deep the recursion may go *)
Fixpoint depth (n : node) : nat :=
  match n with
  | NArray l => S (list_max (map depth l))
  | NDict l => S (list_max (map (fun e => depth (snd e)) l))
  | NClass _ pos kw => S (Nat.max (list_max (map depth pos)) (list_max (map (fun e => depth (snd e)) kw)))
  | _ => O
  end.
(** GenericConvexGeometryMatcher.cpp:284-291 *)
Fixpoint geometry_m (fuel : nat) : mt :=
  match fuel with
  | O => Matcher any (fun _ => Throws) (fun _ => true) None
  | S f => match_alternative any (script_a (geometry_m f))
  end.
Definition geometry : mt := Matcher any (fun n => mt_match any (geometry_m (S (depth n))) n) (mt_type any (geometry_m 1)) (mt_class any (geometry_m 1)).
(** GenericConvexGeometryMatcher.cpp:293-302, [None]: an exception *)
Definition match_geometry (erange : list Z -> bool) (expression : text) : option (list command) :=
  match parse erange expression with
  | Ok n => match mt_match any geometry n with Match v => as_script v | _ => None end
  | _ => None
  end.

(** *** generic_convex *)

(** ShapeMatcher.cpp:58-67 *)
Definition some_non_zero (l : list any) : bool := existsb (fun v => truth (x <- as_real v ;; Some (Rltb (/ 10 ^ 10) (Rabs x)))) l.
Definition axis_m : mt := array_m (real_m [] AReal) [size_three; some_non_zero] (fun l => v <- triple l ;; u <- normalized v ;; Some (AArr u)).
Definition maybe_axis_m : mt := match_alternative any (or_ (alone axis_m) (match_none any ADisabled)).
(** Any::isEmpty *)
Definition isEmpty (v : any) : bool := match v with ADisabled => true | _ => false end.
Definition as_axis (v : any) : option (option vec) := if isEmpty v then Some None else a <- as_arr v ;; Some (Some a).
(** ShapeMatcher.cpp:69-74 *)
Definition as_point (e : text * any) : option (text * vec) := v <- as_arr (snd e) ;; Some (fst e, v).
Fixpoint as_points (l : list (text * any)) : option points := match l with [] => Some [] | e :: l' => p <- as_point e ;; r <- as_points l' ;; Some (p :: r) end.
Definition named_points_m : mt :=
  match_dict any ANode (DictMatcher any [] (Some vector_m) []) (fun l => made (p <- as_points l ;; Some (ABulk p))).
(** ShapeMatcher.cpp:471-481 *)
Definition validate_axes (d : cdata) : bool :=
  if isEmpty (get d "primary_axis") then isEmpty (get d "secondary_axis")
  else if negb (isEmpty (get d "secondary_axis")) then
    truth (pa <- as_arr (get d "primary_axis") ;; sa <- as_arr (get d "secondary_axis") ;; Some (Rltb (vdot pa sa) (/ 10 ^ 12)))
  else true.
(** ShapeMatcher.cpp:411-441 *)
Definition generic_convex_class : mt :=
  class_m "generic_convex"
    [required "geometry" geometry; required "volume" size_m; optional "geometric_center" vector_m zeros; optional "primary_axis" maybe_axis_m NNone;
     optional "secondary_axis" maybe_axis_m NNone; optional "named_points" named_points_m (NDict [])] None None [validate_axes]
    (fun d =>
      cs <- as_script (get d "geometry") ;; volume <- as_real (get d "volume") ;; o <- as_arr (get d "geometric_center") ;;
      pa <- as_axis (get d "primary_axis") ;; sa <- as_axis (get d "secondary_axis") ;; np <- as_bulk (get d "named_points") ;;
      g <- build cs ;; Some (AObs (ConvexShape g pa sa o volume np))).
(** ShapeMatcher.cpp:485-494 for this class, [None]: an exception *)
Definition match_convex (erange : list Z -> bool) (expression : text) : option convex_shape :=
  match parse erange expression with
  | Ok n => match mt_match any generic_convex_class n with Match v => as_obs v | _ => None end
  | _ => None
  end.
End Convex.
