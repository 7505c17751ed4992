(** [src/core/DomainDecomposition.{h,cpp}], [src/core/ActiveDomain.cpp] and the retry loop of
    [src/core/Simulation.cpp] performMoves.

    Arrays indexed by the coordinate are functions of the axis; [None]/[DdFailed] are failed preconditions. *)
From Coq Require Import Reals ZArith List Bool.
From Verif Require Import GeomModel BoxModel RFloorModel PbcModel NGModel PackModel PackSpec.
Import ListNotations.
Open Scope R_scope.

(** ActiveDomain.h:23-26. *)
Record bounds := Bounds { bd_beg : R; bd_end : R }.

(** DomainDecomposition.cpp:155-162. *)
Definition fitPeriodically (x period : R) : R :=
  if Rltb x 0 then x + period else if Rleb period x then x - period else x.

(** DomainDecomposition.cpp:137-144, ActiveDomain.cpp:11-18. *)
Definition between (b : bounds) (x : R) : bool :=
  if Rltb (bd_beg b) (bd_end b)
  then negb (Rleb x (bd_beg b) || Rleb (bd_end b) x)
  else negb (Rleb x (bd_beg b) && Rleb (bd_end b) x).

(** DomainDecomposition.cpp:65-67: middle of the neighbour grid cell closest to the wanted middle of the ghost layer. *)
Definition ghost_middle (originRel : R) (n : nat) (ng : Z) (idx : nat) : R :=
  let theoreticalMiddle := originRel + INR idx * (1 / INR n) in
  (IZR (Rround (theoreticalMiddle * IZR ng - 0.5)) + 0.5) / IZR ng.

(** One pass of the loop DomainDecomposition.cpp:63-83; [previousGhostEnd] is initially minus infinity ([None]). *)
Definition place_ghost (originRel ghostWidthRel : R) (n : nat) (ng : Z) (idx : nat) (st : list bounds * option R)
  : option (list bounds * option R) :=
  let (bs, previousGhostEnd) := st in
  let realMiddle := ghost_middle originRel n ng idx in
  let previousDomainIdx := Nat.modulo (idx + n - 1) n in
  let ghostBeg := realMiddle - ghostWidthRel / 2 in
  let ghostEnd := realMiddle + ghostWidthRel / 2 in
  if match previousGhostEnd with None => true | Some e => Rltb e ghostBeg end then
    p <- nth_error bs previousDomainIdx ;;
    (bs1 <- set_nth bs previousDomainIdx (Bounds (bd_beg p) (fitPeriodically ghostBeg 1)) ;;
     (q <- nth_error bs1 idx ;;
      (bs2 <- set_nth bs1 idx (Bounds (fitPeriodically ghostEnd 1) (bd_end q)) ;;
       Some (bs2, Some ghostEnd))))
  else None.
Fixpoint place_ghosts (originRel ghostWidthRel : R) (n : nat) (ng : Z) (idxs : list nat) (st : list bounds * option R)
  : option (list bounds) :=
  match idxs with
  | [] => Some (fst st)
  | idx :: idxs' =>
    st' <- place_ghost originRel ghostWidthRel n ng idx st ;; place_ghosts originRel ghostWidthRel n ng idxs' st'
  end.

Inductive axis_result := AxisReady (bs : list bounds) | AxisTooNarrow | AxisFailed.
(** Body of the loop DomainDecomposition.cpp:42-84, for one axis with box height [h], [n] domains, [ng] grid cells. *)
Definition prepare_axis (h range totalRange originRel : R) (n : nat) (ng : Z) : axis_result :=
  if negb (Rleb 0 originRel && Rltb originRel 1) then AxisFailed
  else if negb (Nat.ltb 0 n) then AxisFailed
  else if negb (0 <? ng)%Z then AxisFailed
  else if Nat.ltb n 2 then AxisReady []
  else
    let ngCellSize := h / IZR ng in
    if negb (Rleb range ngCellSize) then AxisFailed
    else
      let wholeDomainWidthRel := 1 / INR n in
      let ghostLayerWidthRel := (totalRange - range + ngCellSize) / h in
      let ngCellSizeRel := 1 / IZR ng in
      if Rleb (wholeDomainWidthRel - ghostLayerWidthRel) ngCellSizeRel then AxisTooNarrow
      else match place_ghosts originRel ghostLayerWidthRel n ng (seq 0 n) (repeat (Bounds 0 0) n, None) with
           | Some bs => AxisReady bs
           | None => AxisFailed
           end.

Record decomposition := Decomp {
  dd_box : box; dd_div : axis -> nat; dd_bounds : axis -> list bounds; dd_regions : list (list nat) }.

(** DomainDecomposition.cpp:119-126. *)
Definition coordToIdx (div : axis -> nat) (c : axis -> nat) : option nat :=
  if Nat.ltb (c AX) (div AX) && Nat.ltb (c AY) (div AY) && Nat.ltb (c AZ) (div AZ)
  then Some (div AZ * (div AY * (div AX * 0 + c AX) + c AY) + c AZ)%nat else None.

(** DomainDecomposition.cpp:128-147; the loop returns at the first axis which fails, later bounds are not looked at. *)
Definition axis_active (div : axis -> nat) (bs : axis -> list bounds) (v : vec) (c : axis -> nat) (a : axis) : option bool :=
  if negb (Nat.ltb (c a) (div a)) then None
  else if Nat.ltb (div a) 2 then Some true
  else b <- nth_error (bs a) (c a) ;; Some (between b (vget v a)).
Definition isRelativeVectorInActiveRegion (div : axis -> nat) (bs : axis -> list bounds) (v : vec) (c : axis -> nat) : option bool :=
  x <- axis_active div bs v c AX ;;
  if negb x then Some false else
  (y <- axis_active div bs v c AY ;;
   if negb y then Some false else
   axis_active div bs v c AZ).

(** DomainDecomposition.cpp:102-106. The code adds an int to a size_t: for coord >= -divisions, which is the case for points in
    the box, this is the sum of integers. *)
Definition domain_coord (div : axis -> nat) (originRel posRel : vec) (a : axis) : nat :=
  let n := Z.of_nat (div a) in
  let coord := Rfl ((vget posRel a - vget originRel a) * IZR n) in
  Z.to_nat ((coord + n) mod n).

(** DomainDecomposition.cpp:97-112: [Some None] is a ghost particle. *)
Definition particle_domain (b : box) (div : axis -> nat) (bs : axis -> list bounds) (originRel pos : vec) : option (option nat) :=
  let posRel := absoluteToRelative b pos in
  let c := domain_coord div originRel posRel in
  act <- isRelativeVectorInActiveRegion div bs posRel c ;;
  if (act : bool) then (i <- coordToIdx div c ;; Some (Some i)) else Some None.

(** DomainDecomposition.cpp:114-116. *)
Fixpoint push_all (doms : list (nat * option nat)) (regions : list (list nat)) : option (list (list nat)) :=
  match doms with
  | [] => Some regions
  | (_, None) :: doms' => push_all doms' regions
  | (i, Some d) :: doms' =>
    l <- nth_error regions d ;; (r' <- set_nth regions d (l ++ [i]) ;; push_all doms' r')
  end.
Definition num_domains (div : axis -> nat) : nat := (div AX * div AY * div AZ)%nat.
(** DomainDecomposition.cpp:87-117. *)
Definition populateDomains (b : box) (div : axis -> nat) (bs : axis -> list bounds) (originRel : vec) (positions : list vec)
  : option (list (list nat)) :=
  doms <- map_opt (particle_domain b div bs originRel) positions ;;
  push_all (enumerate doms) (repeat [] (num_domains div)).

Inductive dd_result := DdReady (d : decomposition) | DdTooNarrow (a : axis) | DdFailed.
(** DomainDecomposition.cpp:23-34 and 36-40: axes are prepared in order. *)
Definition makeDecomposition (pk : packing) (inter : interaction) (div : axis -> nat) (ng : axis -> Z) (origin : vec) : dd_result :=
  let b := pk_box pk in
  let originRel := absoluteToRelative b origin in
  let prep a := prepare_axis (box_height b a) (in_rangeRadius inter) (in_totalRange inter) (vget originRel a) (div a) (ng a) in
  match prep AX with
  | AxisFailed => DdFailed
  | AxisTooNarrow => DdTooNarrow AX
  | AxisReady bx =>
    match prep AY with
    | AxisFailed => DdFailed
    | AxisTooNarrow => DdTooNarrow AY
    | AxisReady by_ =>
      match prep AZ with
      | AxisFailed => DdFailed
      | AxisTooNarrow => DdTooNarrow AZ
      | AxisReady bz =>
        let bs a := match a with AX => bx | AY => by_ | AZ => bz end in
        match populateDomains b div bs originRel (map pt_pos (pk_parts pk)) with
        | Some r => DdReady (Decomp b div bs r)
        | None => DdFailed
        end
      end
    end
  end.

(** DomainDecomposition.h:98-100. *)
Definition getParticlesInRegion (d : decomposition) (c : axis -> nat) : option (list nat) :=
  i <- coordToIdx (dd_div d) c ;; nth_error (dd_regions d) i.

(** ActiveDomain: [None] for an axis stands for infinite bounds. DomainDecomposition.cpp:164-177. *)
Record activeDomain := ActiveDomain { ad_box : box; ad_bounds : axis -> option bounds }.
Definition axis_bounds (d : decomposition) (c : axis -> nat) (a : axis) : option (option bounds) :=
  if negb (Nat.ltb (c a) (dd_div d a)) then None
  else if Nat.ltb (dd_div d a) 2 then Some None
  else b <- nth_error (dd_bounds d a) (c a) ;; Some (Some b).
Definition getActiveDomainBounds (d : decomposition) (c : axis -> nat) : option activeDomain :=
  x <- axis_bounds d c AX ;; (y <- axis_bounds d c AY ;; (z <- axis_bounds d c AZ ;;
  Some (ActiveDomain (dd_box d) (fun a => match a with AX => x | AY => y | AZ => z end)))).
(** ActiveDomain.cpp:9-22. *)
Definition isInside (ad : activeDomain) (p : vec) : bool :=
  let r := absoluteToRelative (ad_box ad) p in
  let ok a := match ad_bounds ad a with None => true | Some b => between b (vget r a) end in
  ok AX && ok AY && ok AZ.

(** Simulation.cpp:365-387. [attempt k div] is what the k-th attempt to decompose gives ([Some a]: too narrow along [a]); each
    attempt has its own random origin. Result: final divisions and whether the sequential algorithm has been used. *)
Definition decrement (div : axis -> nat) (a : axis) : axis -> nat :=
  fun a' => if axis_eqb a' a then (div a' - 1)%nat else div a'.
Fixpoint performMoves (fuel k : nat) (attempt : nat -> (axis -> nat) -> option axis) (div : axis -> nat)
  : option ((axis -> nat) * bool) :=
  match fuel with
  | O => None
  | S fuel' =>
    if Nat.eqb (num_domains div) 1 then Some (div, true)
    else match attempt k div with
         | None => Some (div, false)
         | Some a => performMoves fuel' (S k) attempt (decrement div a)
         end
  end.

(** Packing.h:235-237 with Simulation.cpp:396-413: the divisions of the grid are read from the packing; a packing without a
    neighbour grid dereferences an empty optional. *)
Definition decompose (pk : packing) (inter : interaction) (div : axis -> nat) (origin : vec) : dd_result :=
  match pk_ng pk with
  | Some g => makeDecomposition pk inter div (cget (getCellDivisions g)) origin
  | None => DdFailed
  end.
Definition narrow_along (r : dd_result) : option axis := match r with DdTooNarrow a => Some a | _ => None end.

(** *** Concurrent moves, Simulation.cpp:421-441 and 447-491 *)

(** One perturbation: the particle chosen from the list of the domain, the move sampled for it (move samplers look at the
    chosen particle only), the decision taken on the energy change with the random number which has been drawn. *)
Record plan := Plan { pl_i : nat; pl_op : shape -> pack_op; pl_accept : energy -> bool }.
(** What remains to be done in a domain by a thread, the move which has been tried and not yet decided about, energies reported so
    far (the newest first). *)
Record worker := Worker { wk_thread : nat; wk_todo : list plan; wk_pending : option (plan * energy); wk_log : list energy }.
(** A try and an accept are taken as atomic. *)
Definition worker_step (inter : interaction) (pk : packing) (w : worker) : option (packing * worker) :=
  match wk_pending w with
  | None =>
    match wk_todo w with
    | [] => None
    | pl :: todo =>
      p <- nth_error (pk_parts pk) (pl_i pl) ;;
      (r <- try_op inter (pl_op pl (pt_shape p)) pk ;;
       Some (fst r, Worker (wk_thread w) todo (Some (pl, snd r)) (snd r :: wk_log w)))
    end
  | Some (pl, e) =>
    pk' <- (if pl_accept pl e then acceptMove (wk_thread w) pk else Some pk) ;;
    Some (pk', Worker (wk_thread w) (wk_todo w) None (wk_log w))
  end.
(** A thread does not try a move in one domain before it has decided about a move in another one. *)
Definition busy (thread : nat) (ws : list worker) : bool :=
  existsb (fun w => Nat.eqb (wk_thread w) thread && match wk_pending w with Some _ => true | None => false end) ws.
Definition workers_step (inter : interaction) (k : nat) (st : packing * list worker) : option (packing * list worker) :=
  let (pk, ws) := st in
  w <- nth_error ws k ;;
  if match wk_pending w with None => busy (wk_thread w) ws | Some _ => false end then None
  else r <- worker_step inter pk w ;; (ws' <- set_nth ws k (snd r) ;; Some (fst r, ws')).
(** [schedule]: which worker makes the next step. *)
Fixpoint run_workers (inter : interaction) (schedule : list nat) (st : packing * list worker) : option (packing * list worker) :=
  match schedule with
  | [] => Some st
  | k :: schedule' => st' <- workers_step inter k st ;; run_workers inter schedule' st'
  end.
