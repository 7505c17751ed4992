(** [src/frontend/legacy/ArrangementFactory.cpp]: orthorhombic arrangements in old input files.

    Simplifications:
    - an exception (of any kind) is [None];
    - double: real numbers; [scan] is [operator>>] to a double, [None] if it fails; [stod] is std::stod;
    - the dimensions of the box are [None] if they are automatic (0, 0, 0 in the source, where dimensions which are given have to be positive);
    - [minimal] is find_minimal_distances (.cpp:116-140), whose parts are the subject of [DistModel] and [OrthoModel];
    - the result are the arguments of the constructor of Packing, the box and the shapes; other types of arrangements are not modelled. *)
From Coq Require Import Reals ZArith List Bool String.
From Verif Require Import TextModel StringsModel GeomModel PbcModel LoadModel LegacyModel OrthoModel OptModel.
Import ListNotations.
Open Scope Z_scope.

(** std::string::find: is there an occurrence *)
Fixpoint is_prefix (p s : text) : bool :=
  match p, s with [], _ => true | a :: p', b :: s' => Z.eqb a b && is_prefix p' s' | _, [] => false end.
Fixpoint occurs (p s : text) : bool := is_prefix p s || match s with [] => false | _ :: s' => occurs p s' end.

Section Arrangements.
Variable scan : text -> option (R * text).
Variable stod : text -> option R.
Variable minimal : arranging -> nat -> (axis -> nat) -> text -> option vec.

(** ArrangementFactory.cpp:27-45 *)
Definition parse_box_dimensions (s : text) : option (option vec) :=
  if occurs (str "auto") s then
    w <- extract_word s ;; if text_eqb (fst w) (str "auto") then Some None else None
  else
    v <- parse_vector_from scan s ;;
    if all_axes (fun x => Rltb 0 (vget (fst v) x)) then Some (Some (fst v)) else None.
(** ArrangementFactory.cpp:47-58 *)
Definition parse_axis_name (s : text) : option axis :=
  if text_eqb s (str "x") then Some AX else if text_eqb s (str "y") then Some AY else if text_eqb s (str "z") then Some AZ else None.
(** ArrangementFactory.cpp:60-79; [s] is the whole text, [l] what is left of it *)
Definition parse_polarization (s l : text) : option (polarization * axis * text) :=
  let read p :=
    w <- extract_word l ;; a <- extract_word (snd w) ;;
    if text_eqb (fst w) (str "polar") || text_eqb (fst w) (str "antipolar") then x <- parse_axis_name (fst a) ;; Some (p, x, snd a) else None in
  if occurs (str " polar ") s then read Ferro
  else if occurs (str " antipolar ") s then read Antiferro
  else Some (Implicit, AX, l).
(** ArrangementFactory.cpp:81-101 *)
Definition parse_tilt (s l : text) : option (clinicity * axis * R * text) :=
  let read c :=
    w <- extract_word l ;; a <- extract_word (snd w) ;; t <- scan (snd a) ;;
    if text_eqb (fst w) (str "synclinic") || text_eqb (fst w) (str "anticlinic") then x <- parse_axis_name (fst a) ;; Some (c, x, fst t, snd t) else None in
  if occurs (str " synclinic ") s then read Synclinic
  else if occurs (str " anticlinic ") s then read Anticlinic
  else Some (Unspecified, AX, 0%R, l).

Definition lines_of (x y z : Z) (a : axis) : nat := Z.to_nat (match a with AX => x | AY => y | AZ => z end).
Definition lattice_sites (lines : axis -> nat) : nat := (lines AX * lines AY * lines AZ)%nat.
Definition whole_box (lines : axis -> nat) (cell : vec) : vec := vmake (fun x => (vget cell x * INR (lines x))%R).
(** Three numbers of shapes, and what is left *)
Definition parse_lines (l : text) : option ((axis -> nat) * text) :=
  x <- extract_size l ;; y <- extract_size (snd x) ;; z <- extract_size (snd y) ;; Some (lines_of (fst x) (fst y) (fst z), snd z).
(** OrthorhombicArrangingModel::arrange together with the box *)
Definition arrange_in (a : arranging) (n : nat) (lines : axis -> nat) (cell box : vec) : option (vec * list shape) :=
  shapes <- arrange a n lines cell box ;; Some (box, shapes).
(** ArrangementFactory.cpp:103-114 *)
Definition parse_default (l : text) (n : nat) (box : option vec) (a : arranging) : option (vec * list shape) :=
  w <- extract_word l ;;
  if text_eqb (fst w) (str "default") then b <- box ;; shapes <- arrange_default a n b ;; Some (b, shapes) else None.
(** ArrangementFactory.cpp:142-167 *)
Definition parse_spacing (l : text) (n : nat) (a : arranging) : option (vec * list shape) :=
  w <- extract_word l ;; d <- scan (snd w) ;; o <- extract_word (snd d) ;; k <- parse_lines (snd o) ;;
  if text_eqb (fst w) (str "spacing") && Rltb 0 (fst d) && Nat.leb n (lattice_sites (fst k)) then
    m <- minimal a n (fst k) (fst o) ;;
    let cell := vmake (fun x => (vget m x + fst d)%R) in
    arrange_in a n (fst k) cell (whole_box (fst k) cell)
  else None.
(** ArrangementFactory.cpp:169-208 *)
Definition parse_explicit_sizes (l : text) (n : nat) (box : option vec) (a : arranging) : option (vec * list shape) :=
  u <- extract_word l ;; v <- extract_word (snd u) ;; w <- extract_word (snd v) ;;
  if negb (isAnythingLeft (snd w)) then
    b <- box ;; x <- stoul (fst u) ;; y <- stoul (fst v) ;; z <- stoul (fst w) ;;
    let lines := lines_of x y z in
    if Nat.leb n (lattice_sites lines) then arrange_in a n lines (vmake (fun i => (vget b i / INR (lines i))%R)) b else None
  else
    k <- parse_lines (snd w) ;; x <- stod (fst u) ;; y <- stod (fst v) ;; z <- stod (fst w) ;;
    let cell := V3 x y z in
    if all_axes (fun i => Rltb 0 (vget cell i)) then
      let b := match box with Some b => b | None => whole_box (fst k) cell end in
      if Nat.leb n (lattice_sites (fst k)) then arrange_in a n (fst k) cell b else None
    else None.
(** ArrangementFactory.cpp:210-233 *)
Definition arrange_orthorhombic_shapes (n : nat) (box : option vec) (s l : text) : option (vec * list shape) :=
  t <- parse_tilt s l ;;
  p <- parse_polarization s (snd t) ;;
  let '(c, tiltAxis, angle, _) := t in
  let '(pol, polarAxis, l') := p in
  match c, pol with
  | Synclinic, Implicit | Anticlinic, Implicit => None
  | _, _ =>
    let a := Arranging pol polarAxis c tiltAxis angle in
    if occurs (str " default") s then parse_default l' n box a
    else if occurs (str " spacing ") s then parse_spacing l' n a
    else parse_explicit_sizes l' n box a
  end.
(** ArrangementFactory.cpp:238-258 *)
Definition arrange_packing (n : nat) (boxString s : text) : option (vec * list shape) :=
  w <- extract_word s ;;
  if text_eqb (fst w) (str "orthorhombic") || text_eqb (fst w) (str "lattice") then
    box <- parse_box_dimensions boxString ;; arrange_orthorhombic_shapes n box s (snd w)
  else None.
End Arrangements.
