(** [src/core/Packing.{h,cpp}]: the state of a packing, overlap counting, energies, moves, scaling.

    Simplifications, apart from real numbers for doubles:
    - the arrays [shapes], [interactionCentres] and [absoluteInteractionCentres] of size (N + threads) x centres are kept per
      particle: [pk_parts] for the N particles, [pk_temps] for the temporary ones at the back, one per thread; the
      identifiers stored in the neighbour grid are the flat ones of the code. With no interaction centres the per-particle
      lists are empty, so that the code's [if (numInteractionCentres != 0)] around copying them is not needed;
    - the boundary conditions object is the periodic one, its loops replaced by their values (PbcTotalModel);
    - overlap deltas and counts are unbounded integers (the code: int and size_t);
    - timing and memory statistics are left out;
    - parallel loops whose iterations write disjoint elements are sequential; the reduction loops are treated in
      ParModel. *)
From Coq Require Import Reals ZArith List Bool.
From Verif Require Import GeomModel BoxModel RFloorModel PbcModel PbcTotalModel NGModel.
Import ListNotations.
Open Scope nat_scope.

Notation "x <- a ;; b" := (obind a (fun x => b)) (at level 61, a at next level, right associativity).

(** src/core/BoundaryConditions.h: what an interaction may ask for. *)
Record bcond := Bc { bc_translation : vec -> vec -> vec; bc_distance2 : vec -> vec -> R }.
(** Packing.cpp:22-43. *)
Definition hardcoded (t : vec) : bcond := Bc (fun _ _ => t) (fun p1 p2 => vnorm2 (vsub (vadd p2 t) p1)).
(** src/core/PeriodicBoundaryConditions.cpp. *)
Definition periodic (b : box) : bcond := Bc (translation b) (distance2 b).

(** src/core/Interaction.h. *)
Record interaction := Inter {
  in_hard : bool; in_soft : bool; in_convex : bool;
  in_rangeRadius : R; in_totalRange : R; in_centres : list vec;
  in_overlap : vec -> mat -> nat -> vec -> mat -> nat -> bcond -> bool;
  in_energy : vec -> mat -> nat -> vec -> mat -> nat -> bcond -> R;
  in_wall : vec -> mat -> nat -> vec -> vec -> bool }.

(** A particle: its shape, its interaction centres rotated with it (relative to its position) and their absolute
    positions. *)
Record particle := Particle { pt_shape : shape; pt_rel : list vec; pt_abs : list vec }.
Definition pt_pos (p : particle) : vec := sh_pos (pt_shape p).
Definition pt_rot (p : particle) : mat := sh_rot (pt_shape p).

(** The temporary particle of a thread, the index of the particle it stands for and the overlap change of the last move. *)
Record temp := Temp { tm_last : nat; tm_delta : Z; tm_part : particle }.

(** Packing.h:40-70. [pk_k] is [numInteractionCentres]. *)
Record packing := Packing {
  pk_box : box;
  pk_parts : list particle;
  pk_temps : list temp;
  pk_k : nat;
  pk_range : R;
  pk_ng : option grid;
  pk_tempNg : option grid;
  pk_counting : bool;
  pk_overlaps : Z;
  pk_lastBox : box;
  pk_lastShapes : list shape;
  pk_lastOverlaps : Z;
  pk_wall : axis -> bool }.

Definition set_parts (pk : packing) x := Packing (pk_box pk) x (pk_temps pk) (pk_k pk) (pk_range pk) (pk_ng pk) (pk_tempNg pk)
  (pk_counting pk) (pk_overlaps pk) (pk_lastBox pk) (pk_lastShapes pk) (pk_lastOverlaps pk) (pk_wall pk).
Definition set_temps (pk : packing) x := Packing (pk_box pk) (pk_parts pk) x (pk_k pk) (pk_range pk) (pk_ng pk) (pk_tempNg pk)
  (pk_counting pk) (pk_overlaps pk) (pk_lastBox pk) (pk_lastShapes pk) (pk_lastOverlaps pk) (pk_wall pk).
Definition set_ng (pk : packing) x := Packing (pk_box pk) (pk_parts pk) (pk_temps pk) (pk_k pk) (pk_range pk) x (pk_tempNg pk)
  (pk_counting pk) (pk_overlaps pk) (pk_lastBox pk) (pk_lastShapes pk) (pk_lastOverlaps pk) (pk_wall pk).
Definition set_overlaps (pk : packing) x := Packing (pk_box pk) (pk_parts pk) (pk_temps pk) (pk_k pk) (pk_range pk) (pk_ng pk)
  (pk_tempNg pk) (pk_counting pk) x (pk_lastBox pk) (pk_lastShapes pk) (pk_lastOverlaps pk) (pk_wall pk).
Definition set_counting (pk : packing) x := Packing (pk_box pk) (pk_parts pk) (pk_temps pk) (pk_k pk) (pk_range pk) (pk_ng pk)
  (pk_tempNg pk) x (pk_overlaps pk) (pk_lastBox pk) (pk_lastShapes pk) (pk_lastOverlaps pk) (pk_wall pk).

Definition pk_size (pk : packing) : nat := length (pk_parts pk).

(** Packing.cpp:1041-1047: absolute positions of interaction centres, moved into the box. *)
Definition absolute_centres (b : box) (pos : vec) (rel : list vec) : list vec :=
  map (fun c => let p := vadd pos c in vadd p (correction b p)) rel.

(** *** Loops with early exit *)

(** [for (x : l) { n = f(x); if (earlyExit && n > 0) return n; total += n; }] *)
Fixpoint sum_exit {A} (ee : bool) (f : A -> option nat) (l : list A) : option nat :=
  match l with
  | [] => Some 0
  | x :: l' =>
    n <- f x ;;
    if ee && Nat.ltb 0 n then Some n else (r <- sum_exit ee f l' ;; Some (n + r))
  end.
Definition b2n (b : bool) : nat := if b then 1 else 0.
(** [first;  if it has not returned: + second] *)
Definition then_exit (ee : bool) (first second : option nat) : option nat :=
  n <- first ;; if ee && Nat.ltb 0 n then Some n else (m <- second ;; Some (n + m)).
(** [total += f(x)] over all x. *)
Fixpoint sum_energy {A} (f : A -> option R) (l : list A) : option R :=
  match l with
  | [] => Some 0%R
  | x :: l' => e <- f x ;; (r <- sum_energy f l' ;; Some (e + r)%R)
  end.

(** *** Sites: what an identifier in the neighbour grid stands for *)

(** Packing.cpp:383-390 (no interaction centres: the identifier is the particle) and 634-640 (it is particle x centres +
    centre). Gives particle index, centre index, position, orientation. *)
Definition site (pk : packing) (id : nat) : option (nat * nat * vec * mat) :=
  if Nat.eqb (pk_k pk) 0 then
    p <- nth_error (pk_parts pk) id ;; Some (id, 0, pt_pos p, pt_rot p)
  else
    let i := Nat.div id (pk_k pk) in
    let c := Nat.modulo id (pk_k pk) in
    p <- nth_error (pk_parts pk) i ;; (pos <- nth_error (pt_abs p) c ;; Some (i, c, pos, pt_rot p)).

(** *** Overlaps of one particle *)

(** Packing.cpp:382-400 and 632-646: overlaps of a site (of a particle or its temporary copy) with everything in the
    neighbouring cells except for the particle [orig]. *)
Definition site_overlaps_ng (pk : packing) (g : grid) (inter : interaction) (ee : bool) (orig : nat)
                            (pos : vec) (rot : mat) (centre : nat) : option nat :=
  cells <- getNeighbouringCells g pos false ;;
  sum_exit ee (fun cell : list nat * vec =>
    sum_exit ee (fun id =>
      s2 <- site pk id ;;
      let '(j, centre2, pos2, rot2) := s2 in
      if Nat.eqb j orig then Some 0
      else Some (b2n (in_overlap inter pos rot centre pos2 rot2 centre2 (hardcoded (snd cell))))) (fst cell)) cells.

Definition enumerate {A} (l : list A) : list (nat * A) := combine (seq 0 (length l)) l.

(** Positions to be checked for a particle: its own or those of its interaction centres. *)
Definition particle_sites (k : nat) (p : particle) : list (nat * vec) :=
  if Nat.eqb k 0 then [(0, pt_pos p)] else enumerate (pt_abs p).

(** Packing.cpp:582-617. *)
Definition pair_overlaps (pk : packing) (inter : interaction) (ee : bool) (p q : particle) : option nat :=
  sum_exit ee (fun s1 : nat * vec =>
    sum_exit ee (fun s2 : nat * vec =>
      Some (b2n (in_overlap inter (snd s1) (pt_rot p) (fst s1) (snd s2) (pt_rot q) (fst s2) (periodic (pk_box pk)))))
      (particle_sites (pk_k pk) q)) (particle_sites (pk_k pk) p).

(** Packing.cpp:1086-1142; [None]: the wall normal of a degenerate box (division by zero in [normalized]). *)
Definition sum3 (b : box) : vec := vadd (vadd (vadd vzero (box_side b AX)) (box_side b AY)) (box_side b AZ).
Definition next_axis (a : axis) : axis := match a with AX => AY | AY => AZ | AZ => AX end.
Definition wall_vector (b : box) (a : axis) : vec :=
  let c := vcross (box_side b (next_axis a)) (box_side b (next_axis (next_axis a))) in vscale (/ vnorm c) c.
Definition wall_sites_overlaps (pk : packing) (inter : interaction) (ee : bool) (p : particle) (origin wall : vec) : option nat :=
  if Nat.eqb (pk_k pk) 0 then Some (b2n (in_wall inter (pt_pos p) (pt_rot p) 0 origin wall))
  else sum_exit ee (fun c : nat * vec =>
         Some (b2n (in_wall inter (vadd (pt_pos p) (snd c)) (pt_rot p) (fst c) origin wall))) (enumerate (pt_rel p)).
Definition wall_axis_overlaps (pk : packing) (inter : interaction) (ee : bool) (p : particle) (a : axis) : option nat :=
  if negb (pk_wall pk a) then Some 0
  else
    let w := wall_vector (pk_box pk) a in
    let half := (in_totalRange inter / 2)%R in
    if Rltb (vdot (pt_pos p) w) half then wall_sites_overlaps pk inter ee p vzero w
    else if Rltb (vdot (vsub (sum3 (pk_box pk)) (pt_pos p)) w) half
         then wall_sites_overlaps pk inter ee p (sum3 (pk_box pk)) (vneg w)
    else Some 0.
Definition countParticleWallOverlaps (pk : packing) (inter : interaction) (ee : bool) (p : particle) : option nat :=
  sum_exit ee (wall_axis_overlaps pk inter ee p) [AX; AY; AZ].
(** Packing.cpp:1076-1084. *)
Definition hasAnyWalls (pk : packing) : bool := pk_wall pk AX || pk_wall pk AY || pk_wall pk AZ.

(** Packing.cpp:373-429. *)
Definition countParticleOverlaps (pk : packing) (inter : interaction) (ee : bool) (orig : nat) (p : particle) : option nat :=
  then_exit ee
    (match pk_ng pk with
     | Some g => sum_exit ee (fun s : nat * vec => site_overlaps_ng pk g inter ee orig (snd s) (pt_rot p) (fst s))
                              (particle_sites (pk_k pk) p)
     | None => sum_exit ee (fun jq : nat * particle =>
                 if Nat.eqb orig (fst jq) then Some 0 else pair_overlaps pk inter ee p (snd jq)) (enumerate (pk_parts pk))
     end)
    (if hasAnyWalls pk then countParticleWallOverlaps pk inter ee p else Some 0).

(** *** All overlaps *)

(** Packing.cpp:431-517: one cell of the grid; iterates over the linked list and, for each element, over the rest of the
    list and over half of the neighbouring cells. *)
Definition sites_overlap (inter : interaction) (k : nat) (s1 s2 : nat * nat * vec * mat) (t : vec) : nat :=
  let '(i1, c1, p1, r1) := s1 in
  let '(i2, c2, p2, r2) := s2 in
  if negb (Nat.eqb k 0) && Nat.eqb i1 i2 then 0
  else b2n (in_overlap inter p1 r1 c1 p2 r2 c2 (hardcoded t)).
Fixpoint cell_list_overlaps (pk : packing) (inter : interaction) (ee : bool) (positive : option (list (list nat * vec)))
                            (ids : list nat) : option nat :=
  match ids with
  | [] => Some 0
  | id1 :: rest =>
    then_exit ee
      (s1 <- site pk id1 ;;
       then_exit ee
         (sum_exit ee (fun id2 => s2 <- site pk id2 ;; Some (sites_overlap inter (pk_k pk) s1 s2 vzero)) rest)
         (cells <- positive ;;
          sum_exit ee (fun cell : list nat * vec =>
            sum_exit ee (fun id2 => s2 <- site pk id2 ;; Some (sites_overlap inter (pk_k pk) s1 s2 (snd cell))) (fst cell)) cells))
      (cell_list_overlaps pk inter ee positive rest)
  end.
Definition cell_overlaps (pk : packing) (g : grid) (inter : interaction) (ee : bool) (c : cvec) : option nat :=
  ids <- getCellAt g c ;; cell_list_overlaps pk inter ee (getNeighbouringCellsAt g c true) ids.

(** The iteration space of the collapsed triple loop, Packing.cpp:527-529. *)
Definition all_cells (d : cvec) : list cvec :=
  let r n := map Z.of_nat (seq 0 (Z.to_nat n)) in
  flat_map (fun i => flat_map (fun j => map (fun k => C3 i j k) (r (cz d))) (r (cy d))) (r (cx d)).

(** [for (i) for (j = i+1; ...)], Packing.cpp:545-555. *)
Fixpoint all_pairs_overlaps (pk : packing) (inter : interaction) (ee : bool) (l : list particle) : option nat :=
  match l with
  | [] => Some 0
  | p :: l' => then_exit ee (sum_exit ee (pair_overlaps pk inter ee p) l') (all_pairs_overlaps pk inter ee l')
  end.

(** Packing.cpp:561-580, run sequentially (every thread schedule is treated in ParModel). *)
Definition countWallOverlaps (pk : packing) (inter : interaction) (ee : bool) : option nat :=
  if negb (hasAnyWalls pk) then Some 0 else sum_exit ee (countParticleWallOverlaps pk inter ee) (pk_parts pk).

(** Packing.cpp:519-559, run sequentially (every thread schedule is treated in ParModel). *)
Definition countTotalOverlaps (pk : packing) (inter : interaction) (ee : bool) : option nat :=
  then_exit ee
    (match pk_ng pk with
     | Some g =>
       n <- sum_exit ee (cell_overlaps pk g inter ee) (all_cells (getCellDivisions g)) ;;
       Some (if ee && Nat.ltb 0 n then 1 else n)
     | None => all_pairs_overlaps pk inter ee (pk_parts pk)
     end)
    (countWallOverlaps pk inter ee).

(** *** Energies *)

(** Packing.cpp:657-674 and 744-763. *)
Definition site_energy_ng (pk : packing) (g : grid) (inter : interaction) (orig : nat)
                          (pos : vec) (rot : mat) (centre : nat) : option R :=
  cells <- getNeighbouringCells g pos false ;;
  sum_energy (fun cell : list nat * vec =>
    sum_energy (fun id =>
      s2 <- site pk id ;;
      let '(j, centre2, pos2, rot2) := s2 in
      if Nat.eqb j orig then Some 0%R
      else Some (in_energy inter pos rot centre pos2 rot2 centre2 (hardcoded (snd cell)))) (fst cell)) cells.
(** Packing.cpp:711-739. *)
Definition pair_energy (pk : packing) (inter : interaction) (p q : particle) : option R :=
  sum_energy (fun s1 : nat * vec =>
    sum_energy (fun s2 : nat * vec =>
      Some (in_energy inter (snd s1) (pt_rot p) (fst s1) (snd s2) (pt_rot q) (fst s2) (periodic (pk_box pk))))
      (particle_sites (pk_k pk) q)) (particle_sites (pk_k pk) p).
(** Packing.cpp:649-688. *)
Definition calculateParticleEnergy (pk : packing) (inter : interaction) (orig : nat) (p : particle) : option R :=
  if negb (Nat.ltb orig (pk_size pk)) then None
  else if negb (in_soft inter) then Some 0%R
  else match pk_ng pk with
       | Some g => sum_energy (fun s : nat * vec => site_energy_ng pk g inter orig (snd s) (pt_rot p) (fst s))
                              (particle_sites (pk_k pk) p)
       | None => sum_energy (fun jq : nat * particle =>
                   if Nat.eqb orig (fst jq) then Some 0%R else pair_energy pk inter p (snd jq)) (enumerate (pk_parts pk))
       end.
(** Packing.cpp:766-839. *)
Definition sites_energy (inter : interaction) (k : nat) (s1 s2 : nat * nat * vec * mat) (t : vec) : R :=
  let '(i1, c1, p1, r1) := s1 in
  let '(i2, c2, p2, r2) := s2 in
  if negb (Nat.eqb k 0) && Nat.eqb i1 i2 then 0%R
  else in_energy inter p1 r1 c1 p2 r2 c2 (hardcoded t).
Fixpoint cell_list_energy (pk : packing) (inter : interaction) (positive : option (list (list nat * vec)))
                          (ids : list nat) : option R :=
  match ids with
  | [] => Some 0%R
  | id1 :: rest =>
    s1 <- site pk id1 ;;
    (e1 <- sum_energy (fun id2 => s2 <- site pk id2 ;; Some (sites_energy inter (pk_k pk) s1 s2 vzero)) rest ;;
    (cells <- positive ;;
    (e2 <- sum_energy (fun cell : list nat * vec =>
             sum_energy (fun id2 => s2 <- site pk id2 ;; Some (sites_energy inter (pk_k pk) s1 s2 (snd cell))) (fst cell)) cells ;;
    (e3 <- cell_list_energy pk inter positive rest ;; Some (e1 + e2 + e3)%R))))
  end.
Definition cell_energy (pk : packing) (g : grid) (inter : interaction) (c : cvec) : option R :=
  ids <- getCellAt g c ;; cell_list_energy pk inter (getNeighbouringCellsAt g c true) ids.
Fixpoint all_pairs_energy (pk : packing) (inter : interaction) (l : list particle) : option R :=
  match l with
  | [] => Some 0%R
  | p :: l' => e <- sum_energy (pair_energy pk inter p) l' ;; (r <- all_pairs_energy pk inter l' ;; Some (e + r)%R)
  end.
(** Packing.cpp:690-709. *)
Definition getTotalEnergy (pk : packing) (inter : interaction) : option R :=
  if negb (in_soft inter) then Some 0%R
  else match pk_ng pk with
       | Some g => sum_energy (cell_energy pk g inter) (all_cells (getCellDivisions g))
       | None => all_pairs_energy pk inter (pk_parts pk)
       end.

(** *** Neighbour grid maintenance *)

(** Positions of all sites in the order of their identifiers. *)
Definition site_positions (k : nat) (parts : list particle) : list vec :=
  if Nat.eqb k 0 then map pt_pos parts else flat_map pt_abs parts.
Fixpoint add_cells (cells : list (nat * Z)) (g : grid) : option grid :=
  match cells with
  | [] => Some g
  | (id, c) :: cells' => g' <- grid_add_cell id c g ;; add_cells cells' g'
  end.
(** Packing.cpp:901-929. *)
Definition add_all_centres (k : nat) (parts : list particle) (g : grid) : option grid :=
  cellNos <- map_opt (positionToCellNo g) (site_positions k parts) ;;
  add_cells (enumerate cellNos) g.

Definition cbrt (x : R) : R := Rpower x (/ 3).
Definition max3 (f : axis -> R) : R := Rmax (Rmax (f AX) (f AY)) (f AZ).
Definition min3 (f : axis -> R) : R := Rmin (Rmin (f AX) (f AY)) (f AZ).

(** Packing.cpp:862-866. *)
Definition grid_cell_size (b : box) (range : R) (size : nat) : R :=
  let minCellSize := (cbrt (box_volume b / INR size) / 5)%R in
  if Rltb range minCellSize then minCellSize else range.
Definition CELL_SIZE_EPSILON : R := (1 + 1 / 10 ^ 12)%R.
(** Packing.cpp:858-899. *)
Definition rebuildNeighbourGrid (pk : packing) : option packing :=
  let cellSize := grid_cell_size (pk_box pk) (pk_range pk) (pk_size pk) in
  let h := box_height (pk_box pk) in
  if Rltb (max3 h) (cellSize * 4)%R then Some (set_ng pk None)
  else if Rltb (min3 h) (cellSize * CELL_SIZE_EPSILON)%R then Some (set_ng pk None)
  else
    let total := if Nat.eqb (pk_k pk) 0 then pk_size pk else (pk_k pk * pk_size pk)%nat in
    g <- (match pk_ng pk with
          | None => grid_new (pk_box pk) cellSize total
          | Some g => option_map fst (grid_resize (pk_box pk) cellSize g)
          end) ;;
    (g' <- add_all_centres (pk_k pk) (pk_parts pk) g ;; Some (set_ng pk (Some g'))).

(** Packing.cpp:931-950. *)
Definition setup_parts (b : box) (centres : list vec) (parts : list particle) : list particle :=
  map (fun p => let rel := map (mvec (pt_rot p)) centres in
                Particle (pt_shape p) rel (absolute_centres b (pt_pos p) rel)) parts.
Definition setupForInteraction (inter : interaction) (pk : packing) : option packing :=
  let pk1 := Packing (pk_box pk) (setup_parts (pk_box pk) (in_centres inter) (pk_parts pk)) (pk_temps pk)
               (length (in_centres inter)) (in_rangeRadius inter) (pk_ng pk) (pk_tempNg pk) (pk_counting pk) (pk_overlaps pk)
               (pk_lastBox pk) (pk_lastShapes pk) (pk_lastOverlaps pk) (pk_wall pk) in
  pk2 <- rebuildNeighbourGrid pk1 ;;
  if pk_counting pk2 then (n <- countTotalOverlaps pk2 inter false ;; Some (set_overlaps pk2 (Z.of_nat n)))
  else Some pk2.

(** Packing.cpp:1068-1074. *)
Definition coord_in_box (r : R) : bool := negb (Rltb r 0) && negb (Rleb 1 r).
Definition areShapesWithinBox (shapes : list shape) (b : box) : bool :=
  forallb (fun s => let r := absoluteToRelative b (sh_pos s) in
                    coord_in_box (vx r) && coord_in_box (vy r) && coord_in_box (vz r)) shapes.

(** Packing.cpp:67-82 (on a packing which may already hold something). *)
Definition pk_reset (shapes : list shape) (b : box) (inter : interaction) (pk : packing) : option packing :=
  if Reqb (box_volume b) 0 then None
  else if negb (Rltb 0 (in_rangeRadius inter)) then None
  else match shapes with
       | [] => None
       | _ =>
         if negb (areShapesWithinBox shapes b) then None
         else setupForInteraction inter
                (Packing b (map (fun s => Particle s [] []) shapes) (pk_temps pk) (pk_k pk) (in_rangeRadius inter) (pk_ng pk)
                   (pk_tempNg pk) (pk_counting pk) (pk_overlaps pk) (pk_lastBox pk) (pk_lastShapes pk) (pk_lastOverlaps pk)
                   (pk_wall pk))
       end.
(** Packing.cpp:46-65: constructor with [threads] temporary particles, counting switched off, no walls. *)
Definition no_shape : shape := Shape vzero (M33 1 0 0 0 1 0 0 0 1).
Definition pk_empty (threads : nat) (b0 : box) : packing :=
  Packing b0 [] (repeat (Temp 0 0%Z (Particle no_shape [] [])) threads) 0 0 None None false 0 b0 [] 0 (fun _ => false).
Definition pk_new (threads : nat) (shapes : list shape) (b : box) (inter : interaction) : option packing :=
  pk_reset shapes b inter (pk_empty threads b).

(** Packing.cpp:1049-1053. *)
Definition toggleOverlapCounting (counting : bool) (inter : interaction) (pk : packing) : option packing :=
  let pk1 := set_counting pk counting in
  if counting then (n <- countTotalOverlaps pk1 inter false ;; Some (set_overlaps pk1 (Z.of_nat n))) else Some pk1.

(** Packing.cpp:1075-1079. *)
Definition axis_eqb (a b : axis) : bool :=
  match a, b with AX, AX | AY, AY | AZ, AZ => true | _, _ => false end.
Definition toggleWall (a : axis) (present : bool) (pk : packing) : packing :=
  Packing (pk_box pk) (pk_parts pk) (pk_temps pk) (pk_k pk) (pk_range pk) (pk_ng pk) (pk_tempNg pk) (pk_counting pk)
    (pk_overlaps pk) (pk_lastBox pk) (pk_lastShapes pk) (pk_lastOverlaps pk)
    (fun a' => if axis_eqb a' a then present else pk_wall pk a').

(** *** Moves *)

(** [double] with infinities, as returned by the try functions. *)
Inductive energy := NegInf | Fin (e : R) | PosInf.

(** Packing.cpp:304-323: overlap energy and the new overlap delta (unchanged when it is not computed). *)
Definition calculateMoveOverlapEnergy (pk : packing) (inter : interaction) (orig : nat) (p tmp : particle) (delta : Z)
  : option (energy * Z) :=
  if negb (in_hard inter) then Some (Fin 0, delta)
  else if pk_counting pk then
    ini <- countParticleOverlaps pk inter false orig p ;;
    (fin <- countParticleOverlaps pk inter false orig tmp ;;
     let d := (Z.of_nat fin - Z.of_nat ini)%Z in
     Some (if (d <? 0)%Z then NegInf else if (0 <? d)%Z then PosInf else Fin 0, d))
  else
    n <- countParticleOverlaps pk inter true orig tmp ;;
    Some (if Nat.ltb 0 n then PosInf else Fin 0, delta).

(** The common end of Packing.cpp:84-164: stores the temporary particle and returns the energy. *)
Definition finish_try (pk : packing) (inter : interaction) (thread orig : nat) (p tmp : particle) (delta : Z)
  : option (packing * energy) :=
  temps <- set_nth (pk_temps pk) thread (Temp orig delta tmp) ;;
  let pk1 := set_temps pk temps in
  od <- calculateMoveOverlapEnergy pk1 inter orig p tmp delta ;;
  (temps2 <- set_nth (pk_temps pk) thread (Temp orig (snd od) tmp) ;;
   let pk2 := set_temps pk temps2 in
   match fst od with
   | Fin _ =>
     ini <- calculateParticleEnergy pk2 inter orig p ;;
     (fin <- calculateParticleEnergy pk2 inter orig tmp ;; Some (pk2, Fin (fin - ini)%R))
   | e => Some (pk2, e)
   end).

Definition try_guard (pk : packing) (inter : interaction) (i : nat) : bool :=
  Nat.ltb i (pk_size pk) && Rleb (in_rangeRadius inter) (pk_range pk).

(** Shape after a translation, src/core/Shape.cpp:9-12. *)
Definition translated (b : box) (t : vec) (s : shape) : shape :=
  let p := vadd (sh_pos s) t in Shape (vadd p (correction b p)) (sh_rot s).
Definition rotated (r : mat) (s : shape) : shape := Shape (sh_pos s) (mmul r (sh_rot s)).

(** Leaving the active domain: only the shape of the temporary particle and the particle index have been written. *)
Definition refuse (pk : packing) (thread orig : nat) (tm : temp) (s : shape) : option (packing * energy) :=
  temps <- set_nth (pk_temps pk) thread (Temp orig (tm_delta tm) (Particle s (pt_rel (tm_part tm)) (pt_abs (tm_part tm)))) ;;
  Some (set_temps pk temps, PosInf).

(** Packing.cpp:84-110. [inside] is the [isInside] test of the active domain, if one is given. *)
Definition tryTranslation (thread i : nat) (t : vec) (inter : interaction) (inside : option (vec -> bool)) (pk : packing)
  : option (packing * energy) :=
  if negb (try_guard pk inter i) then None else
  p <- nth_error (pk_parts pk) i ;;
  (tm <- nth_error (pk_temps pk) thread ;;
   let s := translated (pk_box pk) t (pt_shape p) in
   if match inside with Some f => negb (f (sh_pos s)) | None => false end then refuse pk thread i tm s
   else finish_try pk inter thread i p
          (Particle s (pt_rel p) (absolute_centres (pk_box pk) (sh_pos s) (pt_rel p))) (tm_delta tm)).

(** Packing.cpp:112-134. *)
Definition tryRotation (thread i : nat) (r : mat) (inter : interaction) (pk : packing) : option (packing * energy) :=
  if negb (try_guard pk inter i) then None else
  p <- nth_error (pk_parts pk) i ;;
  (tm <- nth_error (pk_temps pk) thread ;;
   let s := rotated r (pt_shape p) in
   let rel := map (mvec r) (pt_rel p) in
   finish_try pk inter thread i p (Particle s rel (absolute_centres (pk_box pk) (sh_pos s) rel)) (tm_delta tm)).

(** Packing.cpp:136-164. *)
Definition tryMove (thread i : nat) (t : vec) (r : mat) (inter : interaction) (inside : option (vec -> bool)) (pk : packing)
  : option (packing * energy) :=
  if negb (try_guard pk inter i) then None else
  p <- nth_error (pk_parts pk) i ;;
  (tm <- nth_error (pk_temps pk) thread ;;
   let s := translated (pk_box pk) t (pt_shape p) in
   if match inside with Some f => negb (f (sh_pos s)) | None => false end then refuse pk thread i tm s
   else let s' := rotated r s in
        let rel := map (mvec r) (pt_rel p) in
        finish_try pk inter thread i p (Particle s' rel (absolute_centres (pk_box pk) (sh_pos s') rel)) (tm_delta tm)).

(** Packing.cpp:325-337: identifiers and positions of the sites of particle [i]. *)
Definition particle_ids (k i : nat) (p : particle) : list (nat * vec) :=
  if Nat.eqb k 0 then [(i, pt_pos p)] else map (fun c : nat * vec => (i * k + fst c, snd c)) (enumerate (pt_abs p)).
Fixpoint ng_add (ids : list (nat * vec)) (g : grid) : option grid :=
  match ids with [] => Some g | (id, pos) :: ids' => g' <- grid_add id pos g ;; ng_add ids' g' end.
Fixpoint ng_remove (ids : list (nat * vec)) (g : grid) : option grid :=
  match ids with [] => Some g | (id, pos) :: ids' => g' <- grid_remove id pos g ;; ng_remove ids' g' end.

(** The common part of Packing.cpp:234-302: [p] is replaced by [p'] in the packing and (if [touch]) in the neighbour grid. *)
Definition replace_particle (pk : packing) (touch : bool) (i : nat) (p p' : particle) (delta : Z) : option packing :=
  parts <- set_nth (pk_parts pk) i p' ;;
  let finish pk' := if pk_counting pk' then set_overlaps pk' (pk_overlaps pk' + delta)%Z else pk' in
  match pk_ng pk with
  | Some g =>
    if touch then
      g1 <- ng_remove (particle_ids (pk_k pk) i p) g ;;
      (g2 <- ng_add (particle_ids (pk_k pk) i p') g1 ;; Some (finish (set_ng (set_parts pk parts) (Some g2))))
    else Some (finish (set_parts pk parts))
  | None => Some (finish (set_parts pk parts))
  end.
(** Packing.cpp:234-258: only the position is taken over from the temporary shape. *)
Definition acceptTranslation (thread : nat) (pk : packing) : option packing :=
  tm <- nth_error (pk_temps pk) thread ;;
  (p <- nth_error (pk_parts pk) (tm_last tm) ;;
   let tp := tm_part tm in
   replace_particle pk true (tm_last tm) p
     (Particle (Shape (pt_pos tp) (pt_rot p)) (pt_rel tp) (pt_abs tp)) (tm_delta tm)).
(** Packing.cpp:260-276: only the orientation is taken over; without interaction centres the grid is not touched. *)
Definition acceptRotation (thread : nat) (pk : packing) : option packing :=
  tm <- nth_error (pk_temps pk) thread ;;
  (p <- nth_error (pk_parts pk) (tm_last tm) ;;
   let tp := tm_part tm in
   replace_particle pk (negb (Nat.eqb (pk_k pk) 0)) (tm_last tm) p
     (Particle (Shape (pt_pos p) (pt_rot tp)) (pt_rel tp) (pt_abs tp)) (tm_delta tm)).
(** Packing.cpp:278-302. *)
Definition acceptMove (thread : nat) (pk : packing) : option packing :=
  tm <- nth_error (pk_temps pk) thread ;;
  (p <- nth_error (pk_parts pk) (tm_last tm) ;;
   replace_particle pk true (tm_last tm) p (tm_part tm) (tm_delta tm)).

(** *** Scaling *)

(** Packing.cpp:1155-1176. *)
Definition UPSCALE_EPSILON : R := (100 / 2 ^ 52)%R.
Definition side_upscaled (o n : vec) : bool :=
  let dot := vdot o n in
  negb (Rltb UPSCALE_EPSILON (Rabs (dot * dot / vnorm2 o / vnorm2 n - 1))) &&
  negb (Rltb (dot * dot / vnorm2 o / vnorm2 o) (1 + UPSCALE_EPSILON)).
Definition isBoxUpscaled (old new : box) : bool :=
  side_upscaled (box_side old AX) (box_side new AX) && side_upscaled (box_side old AY) (box_side new AY) &&
  side_upscaled (box_side old AZ) (box_side new AZ).

(** Packing.cpp:1035-1039. *)
Definition recalculate_all (b : box) (parts : list particle) : list particle :=
  map (fun p => Particle (pt_shape p) (pt_rel p) (absolute_centres b (pt_pos p) (pt_rel p))) parts.

(** Packing.cpp:180-186: particles keep their relative coordinates. *)
Definition rescaled (old new : box) (s : shape) : shape :=
  Shape (relativeToAbsolute new (absoluteToRelative old (sh_pos s))) (sh_rot s).

(** Packing.cpp:172-208. The lastShapes copy of the temporary particles at the back is not kept: they are always written
    before being read. *)
Definition tryScaling (newBox : box) (inter : interaction) (pk : packing) : option (packing * energy) :=
  if Reqb (box_volume newBox) 0 then None
  else if negb (Rleb (in_rangeRadius inter) (pk_range pk)) then None
  else
    iniE <- getTotalEnergy pk inter ;;
    let moved := map (fun p => Particle (rescaled (pk_box pk) newBox (pt_shape p)) (pt_rel p) (pt_abs p)) (pk_parts pk) in
    let pk1 := Packing newBox (recalculate_all newBox moved) (pk_temps pk) (pk_k pk) (pk_range pk) (pk_tempNg pk) (pk_ng pk)
                 (pk_counting pk) (pk_overlaps pk) (pk_box pk) (map pt_shape (pk_parts pk)) (pk_overlaps pk) (pk_wall pk) in
    (pk2 <- rebuildNeighbourGrid pk1 ;;
     let soft pk' := finE <- getTotalEnergy pk' inter ;; Some (pk', Fin (finE - iniE)%R) in
     if negb (in_hard inter) then soft pk2
     else if pk_counting pk2 then
       n <- countTotalOverlaps pk2 inter false ;;
       let pk3 := set_overlaps pk2 (Z.of_nat n) in
       let d := (Z.of_nat n - pk_lastOverlaps pk2)%Z in
       if (d <? 0)%Z then Some (pk3, NegInf) else if (0 <? d)%Z then Some (pk3, PosInf) else soft pk3
     else
       let cannotOverlap := in_convex inter && isBoxUpscaled (pk_lastBox pk2) (pk_box pk2) in
       if cannotOverlap then soft pk2
       else (n <- countTotalOverlaps pk2 inter true ;; if Nat.ltb 0 n then Some (pk2, PosInf) else soft pk2)).

(** Packing.cpp:363-371. *)
Definition revertScaling (pk : packing) : packing :=
  let parts := map (fun ps : particle * shape => Particle (snd ps) (pt_rel (fst ps)) (pt_abs (fst ps)))
                   (combine (pk_parts pk) (pk_lastShapes pk)) in
  Packing (pk_lastBox pk) (recalculate_all (pk_lastBox pk) parts) (pk_temps pk) (pk_k pk) (pk_range pk) (pk_tempNg pk)
          (pk_ng pk) (pk_counting pk) (pk_lastOverlaps pk) (pk_lastBox pk) (pk_lastShapes pk) (pk_lastOverlaps pk) (pk_wall pk).

(** Packing.cpp:1055-1060: [None] is the exception. *)
Definition getCachedNumberOfOverlaps (pk : packing) : option Z := if pk_counting pk then Some (pk_overlaps pk) else None.

(** *** Orientation fixing *)

(** Packing.cpp:1214-1219. *)
Definition fix_step (r : mat) : mat :=
  mmake (fun i j => (1.5 * mget r i j - 0.5 * mget (mmul (mmul r (mtrans r)) r) i j)%R).
Definition fixRotationMatrix (r : mat) : mat := fix_step (fix_step (fix_step r)).
(** Packing.cpp:1221-1240 and 1199-1209: one particle; [true]: rejected. *)
Definition renormalize_one (thread : nat) (inter : interaction) (i : nat) (pk : packing) : option (packing * bool) :=
  p <- nth_error (pk_parts pk) i ;;
  (tm <- nth_error (pk_temps pk) thread ;;
   let rot := fixRotationMatrix (pt_rot p) in
   let rel := map (mvec rot) (in_centres inter) in
   let tmp := Particle (Shape (pt_pos p) rot) rel (absolute_centres (pk_box pk) (pt_pos p) rel) in
   (temps <- set_nth (pk_temps pk) thread (Temp i (tm_delta tm) tmp) ;;
    let pk1 := set_temps pk temps in
    od <- calculateMoveOverlapEnergy pk1 inter i p tmp (tm_delta tm) ;;
    (temps2 <- set_nth (pk_temps pk) thread (Temp i (snd od) tmp) ;;
     let pk2 := set_temps pk temps2 in
     match fst od with
     | PosInf => Some (pk2, true)
     | _ => pk3 <- acceptRotation thread pk2 ;; Some (pk3, false)
     end))).
Fixpoint renormalize_loop (thread : nat) (inter : interaction) (is : list nat) (pk : packing) : option (packing * nat) :=
  match is with
  | [] => Some (pk, 0)
  | i :: is' =>
    r <- renormalize_one thread inter i pk ;;
    (r' <- renormalize_loop thread inter is' (fst r) ;; Some (fst r', b2n (snd r) + snd r'))
  end.
(** Packing.cpp:1178-1212. With [allowOverlaps] the code fixes the orientations in [this->shapes] but then resets the packing
    to [newShapes], the copy made before: the fix is lost. *)
Definition renormalizeOrientations (thread : nat) (inter : interaction) (allowOverlaps : bool) (pk : packing)
  : option (packing * nat) :=
  if allowOverlaps then
    let newShapes := map pt_shape (pk_parts pk) in
    let fixed := map (fun p => Particle (Shape (pt_pos p) (fixRotationMatrix (pt_rot p))) (pt_rel p) (pt_abs p)) (pk_parts pk) in
    pk' <- pk_reset newShapes (pk_box pk) inter (set_parts pk fixed) ;; Some (pk', 0)
  else renormalize_loop thread inter (seq 0 (pk_size pk)) pk.
