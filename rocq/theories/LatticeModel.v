(** [src/core/lattice/Lattice.cpp], [UnitCell.cpp], [SerialPopulator.cpp], [RandomPopulator.cpp], [LatticeTraits.cpp:10-25].

    All cells of a lattice share a single box (a shared pointer, UnitCell.h:22, Lattice.cpp:29), so it is kept once. [std::size_t] and [int]
    are not bounded, and reading a vector outside of its bounds is [None], as a failed precondition or an exception. *)
From Coq Require Import ZArith Reals List Bool Arith.
From Verif Require Import OptModel TextModel GeomModel BoxModel PbcModel RFloorModel.
Import ListNotations.
Local Open Scope nat_scope.

(** std::array<std::size_t, 3> *)
Record idx3 := I3 { ix : nat; iy : nat; iz : nat }.
Definition iget (c : idx3) (a : axis) : nat := match a with AX => ix c | AY => iy c | AZ => iz c end.
Definition iset (c : idx3) (a : axis) (n : nat) : idx3 :=
  match a with AX => I3 n (iy c) (iz c) | AY => I3 (ix c) n (iz c) | AZ => I3 (ix c) (iy c) n end.

(** Lattice.h:30-33; [numCells] is calculated in the constructor and never changed, see [numCells] below *)
Record lattice := Lattice { lat_box : box; lat_cells : list (list shape); lat_dims : idx3; lat_regular : bool }.
Definition numCells (l : lattice) : nat := ix (lat_dims l) * iy (lat_dims l) * iz (lat_dims l).
(** Lattice.cpp:12-17 *)
Definition make_lattice (b : box) (molecules : list shape) (d : idx3) : option lattice :=
  if Nat.ltb 0 (ix d) && Nat.ltb 0 (iy d) && Nat.ltb 0 (iz d) then Some (Lattice b [molecules] d true) else None.
(** Lattice.cpp:35-41 *)
Definition getCellIndex (l : lattice) (c : idx3) : option nat :=
  if Nat.ltb (ix c) (ix (lat_dims l)) && Nat.ltb (iy c) (iy (lat_dims l)) && Nat.ltb (iz c) (iz (lat_dims l))
  then Some (ix c + iy c * ix (lat_dims l) + iz c * ix (lat_dims l) * iy (lat_dims l)) else None.
(** Lattice.cpp:19-24 and 88-90 *)
Definition getSpecificCell (l : lattice) (c : idx3) : option (list shape) :=
  if lat_regular l then nth_error (lat_cells l) 0 else i <- getCellIndex l c ;; nth_error (lat_cells l) i.
(** Lattice.cpp:26-33: returns a reference; [f] is what is done with it *)
Fixpoint change (i : nat) (f : list shape -> list shape) (l : list (list shape)) : list (list shape) :=
  match l, i with [], _ => [] | x :: l', O => f x :: l' | x :: l', S i' => x :: change i' f l' end.
Definition modifySpecificCellMolecules (l : lattice) (c : idx3) (f : list shape -> list shape) : option lattice :=
  front <- nth_error (lat_cells l) 0 ;;
  let l' := if lat_regular l then Lattice (lat_box l) (lat_cells l ++ repeat front (numCells l - length (lat_cells l))) (lat_dims l) false else l in
  i <- getCellIndex l' c ;; Some (Lattice (lat_box l') (change i f (lat_cells l')) (lat_dims l') (lat_regular l')).
(** Lattice.cpp:96-99 *)
Definition modifyUnitCellMolecules (l : lattice) (f : list shape -> list shape) : option lattice :=
  if lat_regular l then Some (Lattice (lat_box l) (change 0 f (lat_cells l)) (lat_dims l) true) else None.
(** Lattice.h:91 *)
Definition modifyCellBox (l : lattice) (b : box) : lattice := Lattice b (lat_cells l) (lat_dims l) (lat_regular l).
(** Lattice.cpp:43-48 *)
Definition getLatticeBox (l : lattice) : option box :=
  box_of_sides (vscale (INR (ix (lat_dims l))) (box_side (lat_box l) AX)) (vscale (INR (iy (lat_dims l))) (box_side (lat_box l) AY))
               (vscale (INR (iz (lat_dims l))) (box_side (lat_box l) AZ)).
(** Lattice.cpp:50-59 *)
Definition lattice_size (l : lattice) : option nat :=
  if lat_regular l then front <- nth_error (lat_cells l) 0 ;; Some (numCells l * length front)
  else Some (fold_left (fun n cell => n + length cell) (lat_cells l) 0).

(** Three nested loops over cells, the outermost one first *)
Definition loop3 (a0 a1 a2 : axis) (d : idx3) : list idx3 :=
  flat_map (fun i => flat_map (fun j => map (fun k => iset (iset (iset (I3 0 0 0) a0 i) a1 j) a2 k) (seq 0 (iget d a2))) (seq 0 (iget d a1))) (seq 0 (iget d a0)).
(** Lattice.cpp:72-74 *)
Definition cell_corner (c : idx3) : vec := V3 (INR (ix c)) (INR (iy c)) (INR (iz c)).
Definition place (b : box) (c : idx3) (s : shape) : shape := Shape (relativeToAbsolute b (vadd (cell_corner c) (sh_pos s))) (sh_rot s).
(** Lattice.cpp:61-81 *)
Definition generateMolecules (l : lattice) : option (list shape) :=
  fold_left (fun r c => shapes <- r ;; (cell <- getSpecificCell l c ;; Some (shapes ++ map (place (lat_box l) c) cell))) (loop3 AX AY AZ (lat_dims l)) (Some []).

(** LatticeTraits.cpp:10-25; codes of letters *)
Definition parseAxisOrder (s : text) : option (axis * axis * axis) :=
  if text_eqb s [120; 121; 122]%Z then Some (AX, AY, AZ)
  else if text_eqb s [120; 122; 121]%Z then Some (AX, AZ, AY)
  else if text_eqb s [121; 120; 122]%Z then Some (AY, AX, AZ)
  else if text_eqb s [121; 122; 120]%Z then Some (AY, AZ, AX)
  else if text_eqb s [122; 120; 121]%Z then Some (AZ, AX, AY)
  else if text_eqb s [122; 121; 120]%Z then Some (AZ, AY, AX)
  else None.
(** SerialPopulator.cpp:22-29: shapes of one cell; the second component tells whether the function has returned *)
Fixpoint populate_cell (b : box) (c : idx3) (n : nat) (cell shapes : list shape) : list shape * bool :=
  match cell with
  | [] => (shapes, false)
  | s :: cell' => if Nat.eqb (length shapes) n then (shapes, true) else populate_cell b c n cell' (shapes ++ [place b c s])
  end.
Fixpoint populate_cells (l : lattice) (n : nat) (cells : list idx3) (shapes : list shape) : option (list shape) :=
  match cells with
  | [] => Some shapes
  | c :: cells' => cell <- getSpecificCell l c ;;
    (let r := populate_cell (lat_box l) c n cell shapes in if snd r then Some (fst r) else populate_cells l n cells' (fst r))
  end.
(** SerialPopulator.h:24-26, SerialPopulator.cpp:9-37 *)
Definition serial_populate (order : text) (l : lattice) (n : nat) : option (list shape) :=
  o <- parseAxisOrder order ;; (size <- lattice_size l ;;
  if Nat.leb n size then let '(a0, a1, a2) := o in populate_cells l n (loop3 a0 a1 a2 (lat_dims l)) [] else None).
(** std::sort of numbers *)
Fixpoint insert_nat (n : nat) (l : list nat) : list nat := match l with [] => [n] | m :: l' => if Nat.leb n m then n :: l else m :: insert_nat n l' end.
Definition sort_nat (l : list nat) : list nat := fold_right insert_nat [] l.
Fixpoint select_all (shapes : list shape) (is' : list nat) : option (list shape) :=
  match is' with [] => Some [] | i :: is'' => s <- nth_error shapes i ;; (r <- select_all shapes is'' ;; Some (s :: r)) end.
(** RandomPopulator.cpp:12-29; [shuffled] are indices after the shuffle *)
Definition random_populate (shuffled : list nat) (l : lattice) (n : nat) : option (list shape) :=
  size <- lattice_size l ;; if Nat.leb n size then shapes <- generateMolecules l ;; select_all shapes (sort_nat (firstn n shuffled)) else None.

(** UnitCell.cpp:17-23, Lattice.cpp:149-151 *)
Definition coord_normalized (x : R) : bool := negb (Rltb x 0%R || Rleb 1%R x).
Definition cell_normalized (molecules : list shape) : bool :=
  forallb (fun s => coord_normalized (vx (sh_pos s)) && coord_normalized (vy (sh_pos s)) && coord_normalized (vz (sh_pos s))) molecules.
Definition isNormalized (l : lattice) : bool := forallb cell_normalized (lat_cells l).
(** Lattice.cpp:115-120 *)
Definition normalize_coord (fuel : nat) (x : R) : option R :=
  y <- while_add fuel (fun c => Rltb c 0) 1%R x ;; while_add fuel (fun c => Rleb 1 c) (-1)%R y.
Definition normalize_shape (fuel : nat) (s : shape) : option shape :=
  p <- for_axes (fun a => normalize_coord fuel (vget (sh_pos s) a)) ;; Some (Shape p (sh_rot s)).
Fixpoint normalize_shapes (fuel : nat) (l : list shape) : option (list shape) :=
  match l with [] => Some [] | s :: l' => s' <- normalize_shape fuel s ;; (r <- normalize_shapes fuel l' ;; Some (s' :: r)) end.
(** Lattice.cpp:111-123 *)
Definition normalizeRegular (fuel : nat) (l : lattice) : option lattice :=
  front <- nth_error (lat_cells l) 0 ;; (molecules <- normalize_shapes fuel front ;; modifyUnitCellMolecules l (fun _ => molecules)).
(** Lattice.cpp:129-143: a single molecule; [Z.rem] is the operator % *)
Definition cell_of (coord dim : Z) : nat := Z.to_nat (Z.rem (Z.rem coord dim + dim) dim).
Definition renormalized (b : box) (d : idx3) (molecule : shape) : idx3 * shape :=
  let rel := absoluteToRelative b (sh_pos molecule) in
  let fl a := Rfl (vget rel a) in
  let cell a := cell_of (fl a) (Z.of_nat (iget d a)) in
  (I3 (cell AX) (cell AY) (cell AZ), Shape (vsub rel (V3 (IZR (fl AX)) (IZR (fl AY)) (IZR (fl AZ)))) (sh_rot molecule)).
(** Lattice.cpp:125-147 *)
Definition normalizeIrregular (l : lattice) : option lattice :=
  molecules <- generateMolecules l ;;
  fold_left (fun r molecule => new <- r ;; (let cs := renormalized (lat_box l) (lat_dims l) molecule in
                                            modifySpecificCellMolecules new (fst cs) (fun ms => ms ++ [snd cs])))
            molecules (make_lattice (lat_box l) [] (lat_dims l)).
(** Lattice.cpp:101-109; [fuel] bounds the number of iterations of each while loop *)
Definition normalize (fuel : nat) (l : lattice) : option lattice :=
  if isNormalized l then Some l else if lat_regular l then normalizeRegular fuel l else normalizeIrregular l.
