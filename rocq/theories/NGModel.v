(** [src/core/NeighbourGrid.{h,cpp}].

    Cell numbers are [Z] (the code: [std::size_t]); the additions and subtractions for which the code relies on
    unsigned wrap-around are taken modulo 2^64 ([wrap64]). The list terminator [LIST_END = SIZE_MAX] (NeighbourGrid.h:30)
    is modelled as [None] in an [option nat]. An access outside a [std::vector] is undefined behaviour in the code and
    [None] (of the operation) in the model; a failed [Expects]/[Assert] is [None] too.
    The race condition sanitizer (compiled out by default, NeighbourGrid.h:9-13) is not modelled. *)
From Coq Require Import Reals ZArith List Bool.
From Verif Require Import GeomModel BoxModel RFloorModel PbcModel.
Import ListNotations.
Open Scope Z_scope.

Record cvec := C3 { cx : Z; cy : Z; cz : Z }.
Definition cget (c : cvec) (a : axis) : Z := match a with AX => cx c | AY => cy c | AZ => cz c end.

Definition wrap64 (z : Z) : Z := z mod 2 ^ 64.

(** [std::vector] access; [None] is out of bounds. *)
Definition zget {A} (l : list A) (i : Z) : option A :=
  if 0 <=? i then nth_error l (Z.to_nat i) else None.
Fixpoint set_nth {A} (l : list A) (n : nat) (x : A) : option (list A) :=
  match l, n with
  | [], _ => None
  | _ :: l', O => Some (x :: l')
  | y :: l', S n' => match set_nth l' n' x with Some r => Some (y :: r) | None => None end
  end.
Definition zset {A} (l : list A) (i : Z) (x : A) : option (list A) :=
  if 0 <=? i then set_nth l (Z.to_nat i) x else None.
(** [std::vector::resize]: truncates or appends copies of [d]. *)
Definition vresize {A} (n : nat) (d : A) (l : list A) : list A := firstn n l ++ repeat d (n - length l).

(** NeighbourGrid.cpp:45-50; the loop runs from i = 2 down to 0. *)
Definition coordinatesToCellNo (div c : cvec) : Z :=
  cx div * (cy div * (cz div * 0 + cz c) + cy c) + cx c.
(** NeighbourGrid.cpp:52-57: real (0-based) coordinates; +1 skips the reflected row. *)
Definition realCoordinatesToCellNo (div c : cvec) : Z :=
  cx div * (cy div * (cz div * 0 + cz c + 1) + cy c + 1) + cx c + 1.
(** NeighbourGrid.cpp:36-43. *)
Definition cellNoToCoordinates (div : cvec) (n : Z) : cvec :=
  C3 (n mod cx div) ((n / cx div) mod cy div) ((n / cx div / cy div) mod cz div).
(** NeighbourGrid.cpp:59-70; [neighbour] goes from 0 to 2, the offset from -1 to 1; unsigned subtraction below zero would
    wrap to a huge number, hence fail the Assert, as does an index past the end. *)
Definition cellNeighbourToCellNo (div c nb : cvec) : option Z :=
  let ix a := cget c a + cget nb a - 1 in
  let ok a := (0 <=? ix a) && (ix a <? cget div a) in
  if ok AX && ok AY && ok AZ
  then Some (coordinatesToCellNo div (C3 (ix AX) (ix AY) (ix AZ)))
  else None.
(** NeighbourGrid.cpp:72-78. *)
Definition isCellReflected (div : cvec) (n : Z) : bool :=
  let c := cellNoToCoordinates div n in
  let edge a := (cget c a =? 0) || (cget c a =? cget div a - 1) in
  edge AX || edge AY || edge AZ.
(** NeighbourGrid.h:47. *)
Definition flattenTranslationIndex (i j k : Z) : Z := i * 3 * 3 + j * 3 + k.
(** NeighbourGrid.cpp:88-95, one axis: new coordinate and translation index. *)
Definition reflect_axis (d c : Z) : Z * Z :=
  if c =? 0 then (d - 2, 0) else if c =? d - 1 then (1, 2) else (c, 1).
(** NeighbourGrid.cpp:80-100. *)
Definition getReflectedCellData (div : cvec) (n : Z) : Z * Z :=
  if negb (isCellReflected div n) then (n, flattenTranslationIndex 1 1 1)
  else
    let c := cellNoToCoordinates div n in
    let '(x, tx) := reflect_axis (cx div) (cx c) in
    let '(y, ty) := reflect_axis (cy div) (cy c) in
    let '(z, tz) := reflect_axis (cz div) (cz c) in
    (coordinatesToCellNo div (C3 x y z), flattenTranslationIndex tx ty tz).

(** NeighbourGrid.cpp:102-111: increments the neighbour counter, least significant digit first; returns whether it is
    still in range. *)
Definition increment (n : cvec) : cvec * bool :=
  let x := cx n + 1 in
  if 2 <? x then
    let y := cy n + 1 in
    if 2 <? y then
      let z := cz n + 1 in (C3 0 0 z, z <=? 2)
    else (C3 0 y (cz n), cz n <=? 2)
  else (C3 x (cy n) (cz n), cz n <=? 2).

(** NeighbourGrid.cpp:127-132, the do-while loop; collects (neighbour, offset). [None]: Assert failed or fuel exhausted. *)
Fixpoint offsets_loop (fuel : nat) (div test : cvec) (testNo : Z) (nb : cvec) : option (list (cvec * Z)) :=
  match fuel with
  | O => None
  | S fuel' =>
    match cellNeighbourToCellNo div test nb with
    | None => None
    | Some no =>
      let off := wrap64 (no - testNo) in
      match increment nb with
      | (nb', true) =>
        match offsets_loop fuel' div test testNo nb' with
        | Some r => Some ((nb, off) :: r)
        | None => None
        end
      | (_, false) => Some [(nb, off)]
      end
    end
  end.

(** [std::sort] on unsigned numbers (any sorting algorithm gives the same result). *)
Fixpoint insert_sorted (x : Z) (l : list Z) : list Z :=
  match l with
  | [] => [x]
  | y :: l' => if x <=? y then x :: l else y :: insert_sorted x l'
  end.
Fixpoint sort (l : list Z) : list Z :=
  match l with [] => [] | x :: l' => insert_sorted x (sort l') end.
(** [std::unique] + erase: drops consecutive duplicates. *)
Fixpoint unique (l : list Z) : list Z :=
  match l with
  | [] => []
  | x :: l' => match l' with
               | [] => [x]
               | y :: _ => if x =? y then unique l' else x :: unique l'
               end
  end.

(** NeighbourGrid.cpp:130. *)
Definition is_positive_neighbour (nb : cvec) : bool := 13 <? 9 * cx nb + 3 * cy nb + cz nb.

(** NeighbourGrid.cpp:113-143: (all offsets, positive offsets). *)
Definition fillNeighbouringCellsOffsets (div : cvec) : option (list Z * list Z) :=
  let test := C3 (cx div / 2) (cy div / 2) (cz div / 2) in
  let testNo := coordinatesToCellNo div test in
  match offsets_loop 27 div test testNo (C3 0 0 0) with
  | None => None
  | Some l =>
    Some (unique (sort (map snd l)),
          unique (sort (map snd (filter (fun p => is_positive_neighbour (fst p)) l))))
  end.

(** NeighbourGrid.h:32-44. [relativeCellSize] is recomputed from [cellDivisions] (NeighbourGrid.cpp:196). *)
Record grid := Grid {
  g_box : box;
  g_div : cvec;
  g_numCells : Z;
  g_heads : list (option nat);
  g_succ : list (option nat);
  g_translations : list vec;
  g_transIdx : list Z;
  g_reflected : list Z;
  g_offsets : list Z;
  g_posOffsets : list Z }.

(** NeighbourGrid.cpp:188: [floor(height/cellSize) + 2]. *)
Definition cell_divisions (b : box) (cellSize : R) : cvec :=
  let d a := Rfl (box_height b a / cellSize)%R + 2 in C3 (d AX) (d AY) (d AZ).

(** NeighbourGrid.cpp:203-217: the table of 27 translations in the order of [flattenTranslationIndex]. *)
Definition calculateTranslations (b : box) : list vec :=
  flat_map (fun i => flat_map (fun j => map (fun k =>
    relativeToAbsolute b (V3 (IZR i - 1)%R (IZR j - 1)%R (IZR k - 1)%R)) [0; 1; 2]) [0; 1; 2]) [0; 1; 2].

(** NeighbourGrid.cpp:178-201: [None] is a failed Expects; the number of cells is a product of doubles in the code, exact
    below 2^53. *)
Definition setupSizes (b : box) (cellSize : R) : option (cvec * Z) :=
  if negb (Rltb 0 (box_volume b)) then None
  else if negb (Rltb 0 cellSize) then None
  else
    let d := cell_divisions b cellSize in
    if (3 <=? cx d) && (3 <=? cy d) && (3 <=? cz d)
    then Some (d, cx d * cy d * cz d)
    else None.

(** All cell numbers [0 .. numCells-1]. *)
Definition cell_numbers (numCells : Z) : list Z := map Z.of_nat (seq 0 (Z.to_nat numCells)).

(** NeighbourGrid.cpp:145-165: constructor. *)
Definition grid_new (b : box) (cellSize : R) (numParticles : nat) : option grid :=
  match setupSizes b cellSize with
  | None => None
  | Some (div, numCells) =>
    match fillNeighbouringCellsOffsets div with
    | None => None
    | Some (offs, pos) =>
      let n := Z.to_nat numCells in
      let refl := map (getReflectedCellData div) (cell_numbers numCells) in
      Some (Grid b div numCells (repeat None n) (repeat None numParticles) (calculateTranslations b)
                 (map snd refl) (map fst refl) offs pos)
    end
  end.

(** NeighbourGrid.cpp:19: [epsilon() * 10]. *)
Definition EPSILON : R := (10 / 2 ^ 52)%R.
(** NeighbourGrid.cpp:20-30, one axis: clamps rounding errors, then truncates; [None] is a failed Expects. *)
Definition position_coord (div : Z) (r : R) : option Z :=
  let relativeCellSize := (1 / IZR (div - 2))%R in
  let cell x := Some (Rfl (x / relativeCellSize)%R + 1) in
  if Rltb r 0 then (if Rltb (- EPSILON) r then cell 0%R else None)
  else if Rleb 1 r then (if Rltb r (1 + EPSILON)%R then cell (1 - EPSILON)%R else None)
  else cell r.
(** NeighbourGrid.cpp:13-34. *)
Definition positionToCellNo (g : grid) (p : vec) : option Z :=
  let r := absoluteToRelative (g_box g) p in
  let d := g_div g in
  match position_coord (cz d) (vz r), position_coord (cy d) (vy r), position_coord (cx d) (vx r) with
  | Some z, Some y, Some x => Some (cx d * (cy d * (cz d * 0 + z) + y) + x)
  | _, _, _ => None
  end.

Definition with_lists (g : grid) (heads succ : list (option nat)) : grid :=
  Grid (g_box g) (g_div g) (g_numCells g) heads succ (g_translations g) (g_transIdx g) (g_reflected g)
       (g_offsets g) (g_posOffsets g).

(** NeighbourGrid.cpp:229-236: [add(idx, cellNo)]. *)
Definition grid_add_cell (idx : nat) (cellNo : Z) (g : grid) : option grid :=
  match zget (g_heads g) cellNo with
  | None => None
  | Some head =>
    match set_nth (g_succ g) idx head, zset (g_heads g) cellNo (Some idx) with
    | Some succ, Some heads => Some (with_lists g heads succ)
    | _, _ => None
    end
  end.
(** NeighbourGrid.cpp:219-227: [add(idx, position)]. *)
Definition grid_add (idx : nat) (p : vec) (g : grid) : option grid :=
  match positionToCellNo g p with Some c => grid_add_cell idx c g | None => None end.

Definition opt_nat_eqb (a : option nat) (n : nat) : bool :=
  match a with Some m => Nat.eqb m n | None => false end.

(** NeighbourGrid.cpp:249-256: the search loop of [remove]. *)
Fixpoint remove_loop (fuel : nat) (succ : list (option nat)) (idx : nat) (head : option nat)
  : option (list (option nat)) :=
  match head with
  | None => Some succ
  | Some h =>
    match nth_error succ h with
    | None => None
    | Some next =>
      if opt_nat_eqb next idx then
        match nth_error succ idx with
        | None => None
        | Some nextnext =>
          match set_nth succ h nextnext with
          | None => None
          | Some succ1 => set_nth succ1 idx None
          end
        end
      else match fuel with
           | O => None
           | S fuel' => remove_loop fuel' succ idx next
           end
    end
  end.

(** NeighbourGrid.cpp:238-258 for a given cell; the loop gets as many iterations as there are particles. *)
Definition grid_remove_cell (idx : nat) (cellNo : Z) (g : grid) : option grid :=
  match zget (g_heads g) cellNo with
  | None => None
  | Some head =>
    if opt_nat_eqb head idx then
      match nth_error (g_succ g) idx with
      | None => None
      | Some next =>
        match zset (g_heads g) cellNo next, set_nth (g_succ g) idx None with
        | Some heads, Some succ => Some (with_lists g heads succ)
        | _, _ => None
        end
      end
    else
      match remove_loop (length (g_succ g)) (g_succ g) idx head with
      | Some succ => Some (with_lists g (g_heads g) succ)
      | None => None
      end
  end.
Definition grid_remove (idx : nat) (p : vec) (g : grid) : option grid :=
  match positionToCellNo g p with Some c => grid_remove_cell idx c g | None => None end.

(** NeighbourGrid.cpp:260-264. *)
Definition grid_clear (g : grid) : grid :=
  with_lists g (map (fun _ => None) (g_heads g)) (map (fun _ => None) (g_succ g)).

(** NeighbourGrid.h:84-127 and NeighbourGrid.cpp:304-307: following a linked list. [None]: out of bounds or the list does
    not end within [fuel] steps. *)
Fixpoint list_from (fuel : nat) (succ : list (option nat)) (head : option nat) : option (list nat) :=
  match head with
  | None => Some []
  | Some h =>
    match fuel with
    | O => None
    | S fuel' =>
      match nth_error succ h with
      | None => None
      | Some next => match list_from fuel' succ next with Some r => Some (h :: r) | None => None end
      end
    end
  end.
Definition list_cell (g : grid) (cellNo : Z) : option (list nat) :=
  match zget (g_heads g) cellNo with
  | None => None
  | Some head => list_from (length (g_succ g)) (g_succ g) head
  end.
(** NeighbourGrid.cpp:266-270. *)
Definition getCell (g : grid) (p : vec) : option (list nat) :=
  match positionToCellNo g p with Some c => list_cell g c | None => None end.
(** NeighbourGrid.cpp:272-279. *)
Definition coord_ok (g : grid) (c : cvec) : bool :=
  (0 <=? cx c) && (cx c <? cx (g_div g) - 2) && (0 <=? cy c) && (cy c <? cy (g_div g) - 2) &&
  (0 <=? cz c) && (cz c <? cz (g_div g) - 2).
Definition getCellAt (g : grid) (c : cvec) : option (list nat) :=
  if coord_ok g c then list_cell g (realCoordinatesToCellNo (g_div g) c) else None.

(** NeighbourGrid.h:192-198: dereferencing the iterator over neighbouring cells; yields the ids of the aliased real cell
    and the translation. *)
Definition deref_offset (g : grid) (cellNo off : Z) : option (list nat * vec) :=
  let n := wrap64 (cellNo + off) in
  match zget (g_reflected g) n, zget (g_transIdx g) n with
  | Some real, Some ti =>
    match list_cell g real, zget (g_translations g) ti with
    | Some ids, Some t => Some (ids, t)
    | _, _ => None
    end
  | _, _ => None
  end.
Fixpoint map_opt {A B} (f : A -> option B) (l : list A) : option (list B) :=
  match l with
  | [] => Some []
  | x :: l' => match f x, map_opt f l' with Some y, Some r => Some (y :: r) | _, _ => None end
  end.
Definition neighbours_of_cell (g : grid) (cellNo : Z) (onlyPositive : bool) : option (list (list nat * vec)) :=
  map_opt (deref_offset g cellNo) (if onlyPositive then g_posOffsets g else g_offsets g).
(** NeighbourGrid.cpp:353-358. *)
Definition getNeighbouringCells (g : grid) (p : vec) (onlyPositive : bool) : option (list (list nat * vec)) :=
  match positionToCellNo g p with Some c => neighbours_of_cell g c onlyPositive | None => None end.
(** NeighbourGrid.cpp:360-370. *)
Definition getNeighbouringCellsAt (g : grid) (c : cvec) (onlyPositive : bool) : option (list (list nat * vec)) :=
  if coord_ok g c then neighbours_of_cell g (realCoordinatesToCellNo (g_div g) c) onlyPositive else None.
(** NeighbourGrid.cpp:281-297: concatenation of the neighbouring cells. *)
Definition getNeighbours (g : grid) (p : vec) : option (list nat) :=
  match getNeighbouringCells g p false with
  | Some l => Some (concat (map fst l))
  | None => None
  end.
(** NeighbourGrid.cpp:372-374. *)
Definition getCellDivisions (g : grid) : cvec := C3 (cx (g_div g) - 2) (cy (g_div g) - 2) (cz (g_div g) - 2).

Definition cvec_eqb (a b : cvec) : bool := (cx a =? cx b) && (cy a =? cy b) && (cz a =? cz b).

(** [std::vector] overwritten on the first [n] positions by a freshly computed list of length [n]. *)
Definition overwrite {A} (fresh old : list A) : list A := fresh ++ skipn (length fresh) old.

(** NeighbourGrid.cpp:312-340: (new grid, return value). [None]: Expects failed in setupSizes (the grid is unchanged then),
    or out-of-bounds write. New elements of a grown [std::vector<size_t>] are 0. *)
Definition grid_resize (b : box) (cellSize : R) (g : grid) : option (grid * bool) :=
  match setupSizes b cellSize with
  | None => None
  | Some (div, numCells) =>
    if cvec_eqb div (g_div g) then
      Some (grid_clear (Grid b div numCells (g_heads g) (g_succ g) (calculateTranslations b) (g_transIdx g)
                             (g_reflected g) (g_offsets g) (g_posOffsets g)), false)
    else
      let n := Z.to_nat numCells in
      let grow := g_numCells g <? numCells in
      let heads := if grow then vresize n (Some 0%nat) (g_heads g) else g_heads g in
      let transIdx := if grow then vresize n 0 (g_transIdx g) else g_transIdx g in
      let reflected := if grow then vresize n 0 (g_reflected g) else g_reflected g in
      if (Nat.leb n (length transIdx)) && (Nat.leb n (length reflected)) then
        match fillNeighbouringCellsOffsets div with
        | None => None
        | Some (offs, pos) =>
          let refl := map (getReflectedCellData div) (cell_numbers numCells) in
          Some (grid_clear (Grid b div numCells heads (g_succ g) (calculateTranslations b)
                                 (overwrite (map snd refl) transIdx) (overwrite (map fst refl) reflected)
                                 offs pos), true)
        end
      else None
  end.
