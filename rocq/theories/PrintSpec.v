(** Readers of the printed texts: expressions of Mathematica (as far as graphics needs them) and Wavefront OBJ files; and what is to be read. *)
From Coq Require Import Reals ZArith List Bool String.
From Verif Require Import TextModel GeomModel PbcModel GeoModel ShapesModel MeshModel MeshSpec XyzModel XyzSpec PrintModel OptModel.
Import ListNotations.
Local Open Scope list_scope.
Open Scope Z_scope.

(** *** Expressions *)
Inductive expr :=
| Number (t : list Z)
| Symbol (s : list Z)
| Call (f : list Z) (args : list expr)
| Braces (args : list expr)
| ToSlot (f : list Z)            (* f@# *)
| MapOver (body over : expr).    (* body& /@ over *)

Inductive token := TNumber (t : list Z) | TName (t : list Z) | TOpen | TClose | TLeft | TRight | TComma | TAt | THash | TAmp | TMap.
Definition is_letter (c : Z) : bool := (Z.leb 65 c && Z.leb c 90) || (Z.leb 97 c && Z.leb c 122).
Definition is_dot (c : Z) : bool := Z.eqb c 46.
(** Digits with at most one point and perhaps a sign. An exponent is not part of a number here: 1e-05 is a difference for Mathematica. *)
Definition is_number (w : list Z) : bool :=
  let d := match w with c :: d => if Z.eqb c 45 then d else w | [] => [] end in
  match d with c :: _ => is_digit c | [] => false end && forallb (fun c => is_digit c || is_dot c) d && Nat.leb (List.length (filter is_dot d)) 1.
Definition is_name (w : list Z) : bool :=
  match w with c :: w' => is_letter c && forallb (fun c => is_letter c || is_digit c) w' | [] => false end.
Definition word_char (c : Z) : bool := is_letter c || is_digit c || is_dot c || Z.eqb c 45.
Definition word_tokens (w : list Z) : option (list token) :=
  match w with [] => Some [] | _ => if is_name w then Some [TName w] else if is_number w then Some [TNumber w] else None end.
Definition mark (c : Z) : option token :=
  if Z.eqb c 91 then Some TOpen else if Z.eqb c 93 then Some TClose else if Z.eqb c 123 then Some TLeft else if Z.eqb c 125 then Some TRight
  else if Z.eqb c 44 then Some TComma else if Z.eqb c 64 then Some TAt else if Z.eqb c 35 then Some THash else if Z.eqb c 38 then Some TAmp else None.
Fixpoint lex (w l : list Z) : option (list token) :=
  match l with
  | [] => word_tokens w
  | c :: l' =>
    if word_char c then lex (w ++ [c]) l'
    else
      ts <- word_tokens w ;;
      if is_space c then r <- lex [] l' ;; Some (ts ++ r)
      else if Z.eqb c 47 then match l' with c' :: l'' => if Z.eqb c' 64 then r <- lex [] l'' ;; Some (ts ++ TMap :: r) else None | [] => None end
      else m <- mark c ;; r <- lex [] l' ;; Some (ts ++ m :: r)
  end.
Definition token_eqb (a b : token) : bool := match a, b with TClose, TClose => true | TRight, TRight => true | _, _ => false end.
Fixpoint parse (fuel : nat) (ts : list token) : option (expr * list token) :=
  match fuel with
  | O => None
  | S n =>
    p <- match ts with
         | TNumber t :: r => Some (Number t, r)
         | TLeft :: r => a <- parse_args n TRight r ;; Some (Braces (fst a), snd a)
         | TName f :: TOpen :: r => a <- parse_args n TClose r ;; Some (Call f (fst a), snd a)
         | TName f :: TAt :: THash :: r => Some (ToSlot f, r)
         | TName f :: r => Some (Symbol f, r)
         | _ => None
         end ;;
    match snd p with TAmp :: TMap :: r => a <- parse n r ;; Some (MapOver (fst p) (fst a), snd a) | _ => Some p end
  end
(** Expressions with commas between them, up to the closing bracket. *)
with parse_args (fuel : nat) (closing : token) (ts : list token) : option (list expr * list token) :=
  match fuel with
  | O => None
  | S n => match ts with c :: r => if token_eqb c closing then Some ([], r) else parse_more n closing ts | [] => None end
  end
with parse_more (fuel : nat) (closing : token) (ts : list token) : option (list expr * list token) :=
  match fuel with
  | O => None
  | S n =>
    e <- parse n ts ;;
    match snd e with
    | TComma :: r => a <- parse_more n closing r ;; Some (fst e :: fst a, snd a)
    | c :: r => if token_eqb c closing then Some ([fst e], r) else None
    | [] => None
    end
  end.
(** One expression and nothing else; a text of n tokens needs no more than 3 n steps. *)
Definition read (t : list Z) : option expr :=
  ts <- lex [] t ;; e <- parse (3 * List.length ts) ts ;; match snd e with [] => Some (fst e) | _ => None end.

(** *** Pictures *)
Section pictures.
Variable num : R -> list Z.
Definition vec_expr (v : vec) : expr := Braces (map (fun x => Number (num x)) [vx v; vy v; vz v]).
Definition rows_expr (m : mat) : expr := Braces [vec_expr (V3 (m00 m) (m01 m) (m02 m)); vec_expr (V3 (m10 m) (m11 m) (m12 m)); vec_expr (V3 (m20 m) (m21 m) (m22 m))].
(** What AffineTransform is given: rows of the rotation, then the position. *)
Definition placement_expr (s : shape) : expr := Braces [rows_expr (sh_rot s); vec_expr (sh_pos s)].
(** A point of a shape, where the shape is. *)
Definition placed (s : shape) (p : vec) : vec := vadd (sh_pos s) (mvec (sh_rot s) p).
Definition ball_expr (s : shape) (b : bead) : expr := Call (tx "Sphere") [vec_expr (placed s (bd_pos b)); Number (num (bd_radius b))].
Definition tube_expr (name : list Z) (s : shape) (from to : vec) (radius : R) : expr :=
  Call name [Braces [vec_expr (placed s from); vec_expr (placed s to)]; Number (num radius)].
(** Vertices are numbered from 1. *)
Definition triangle_expr (t : triangle) : expr := let '(i, j, k) := t in Braces (map (fun n => Number (decimal (Z.of_nat n + 1))) [i; j; k]).
Definition complex_expr (p : polyhedron) : expr :=
  Call (tx "GraphicsComplex") [Braces (map vec_expr (po_vertices p)); Call (tx "Polygon") [Braces (map triangle_expr (po_triangles p))]].
Definition part_expr (s : shape) (part : polyhedron * vec) : expr :=
  Call (tx "GeometricTransformation") [complex_expr (fst part); Call (tx "AffineTransform") [Braces [rows_expr (sh_rot s); vec_expr (placed s (snd part))]]].
Definition picture (pr : printer) (s : shape) : expr :=
  match pr with
  | SphereP r => Call (tx "Sphere") [vec_expr (sh_pos s); Number (num r)]
  | PolysphereP beads => Braces (map (ball_expr s) beads)
  | SpherocylinderP l r => tube_expr (tx "CapsuleShape") s (V3 0 0 (- l / 2)) (V3 0 0 (l / 2)) r
  | PolyspherocylinderP rods => Braces (map (fun r => tube_expr (tx "Tube") s (vadd (rd_pos r) (rd_half r)) (vsub (rd_pos r) (rd_half r)) (rd_radius r)) rods)
  | MeshP parts => Braces (Call (tx "EdgeForm") [Symbol (tx "None")] :: map (part_expr s) parts)
  end.
End pictures.
Definition graphics (e : expr) : expr := Call (tx "Graphics3D") [e].
(** Printers with something to print. *)
Definition nonempty (pr : printer) : Prop :=
  match pr with PolysphereP l => l <> [] | PolyspherocylinderP l => l <> [] | MeshP l => l <> [] | _ => True end.
(** The notation of numbers a printer uses. *)
Definition notation (plain fixed : R -> list Z) (pr : printer) : R -> list Z := match pr with SphereP _ => plain | _ => fixed end.
Definition readable (num : R -> list Z) : Prop := forall x, is_number (num x) = true.

(** *** Wavefront OBJ: lines "v x y z" and "f i j k"; vertices are numbered from 1 in the order in the file. *)
Fixpoint split_lines (cur l : list Z) : list (list Z) :=
  match l with [] => match cur with [] => [] | _ => [cur] end | c :: l' => if Z.eqb c newline then cur :: split_lines [] l' else split_lines (cur ++ [c]) l' end.
Definition obj_line := (list (list Z * list Z * list Z) * list (Z * Z * Z))%type.
Definition read_index (w : list Z) : option Z := r <- extract_size w ;; match snd r with [] => Some (fst r) | _ => None end.
Fixpoint read_lines (ls : list (list Z)) : option obj_line :=
  match ls with
  | [] => Some ([], [])
  | l :: ls' =>
    rest <- read_lines ls' ;;
    match words [] l with
    | [] => Some rest
    | [c; a; b; d] =>
      if text_eqb c (tx "v") then Some ((a, b, d) :: fst rest, snd rest)
      else if text_eqb c (tx "f") then i <- read_index a ;; j <- read_index b ;; k <- read_index d ;; Some (fst rest, (i, j, k) :: snd rest)
      else None
    | _ => None
    end
  end.
Definition read_obj (t : list Z) : option obj_line := read_lines (split_lines [] t).
(** The points of all meshes, where the shape is, and the triangles of points. *)
Definition obj_points (parts : list (polyhedron * vec)) (s : shape) : list vec :=
  flat_map (fun part => map (fun v => placed s (vadd (snd part) v)) (po_vertices (fst part))) parts.
Definition point_text (show : R -> list Z) (v : vec) : list Z * list Z * list Z := (show (vx v), show (vy v), show (vz v)).
(** The [n]th point of a file, counting from 1. *)
Definition nth_point {A} (l : list A) (n : Z) : option A := if Z.ltb 0 n then nth_error l (Z.to_nat (n - 1)) else None.
Definition resolved {A} (l : list A) (t : Z * Z * Z) (f : A * A * A) : Prop :=
  let '(i, j, k) := t in let '(a, b, c) := f in nth_point l i = Some a /\ nth_point l j = Some b /\ nth_point l k = Some c.
(** The triangles of meshes as triples of points. *)
Definition faces (part : polyhedron * vec) (fs : list (vec * vec * vec)) : Prop := Forall2 (face (fst part)) (po_triangles (fst part)) fs.
Definition placed_face (s : shape) (centre : vec) (f : vec * vec * vec) : vec * vec * vec :=
  let '(a, b, c) := f in (placed s (vadd centre a), placed s (vadd centre b), placed s (vadd centre c)).
