(** What the division into active domains separated by ghost layers should be, in box-relative coordinates. *)
From Coq Require Import Reals ZArith List Bool.
From Verif Require Import GeomModel BoxModel BoxSpec PbcModel PbcSpec NGModel PackModel PackSpec DomModel.
Import ListNotations.
Open Scope R_scope.

(** Thickness of a ghost layer (relative to the box height [h]): twice the reach of the interaction centres of a particle,
    [totalRange - range], plus one cell of the neighbour grid. *)
Definition ghost_thickness (h range totalRange : R) (ng : Z) : R := (totalRange - range + h / IZR ng) / h.
(** An axis divided into [n] >= 2 domains is too narrow if less than a cell would be left between the ghost layers. *)
Definition too_narrow (h range totalRange : R) (n : nat) (ng : Z) : Prop :=
  (2 <= n)%nat /\ 1 / INR n - ghost_thickness h range totalRange ng <= 1 / IZR ng.

(** [cells k] is the cell in whose middle the k-th of the [n] ghost layers lies: a closest one to the k-th of [n] points which
    are spread evenly, starting from the origin. The n-th layer is the 0-th one in the next period. *)
Definition cell_middle (ng : Z) (c : Z) : R := (IZR c + 1 / 2) / IZR ng.
Definition ghost_cells (originRel : R) (n : nat) (ng : Z) (cells : nat -> Z) : Prop :=
  (forall k, (k < n)%nat -> Rabs (cell_middle ng (cells k) - (originRel + INR k / INR n)) <= 1 / (2 * IZR ng)) /\
  cells n = (cells 0%nat + ng)%Z.
(** A coordinate is strictly between the k-th and the next ghost layer of thickness [g], up to the period 1. *)
Definition between_ghosts (ng : Z) (cells : nat -> Z) (g : R) (k : nat) (x : R) : Prop :=
  exists z : Z, cell_middle ng (cells k) + g / 2 < x + IZR z < cell_middle ng (cells (S k)) - g / 2.

(** Arguments accepted by the constructor of the decomposition. *)
Definition legal_axis (h range originRel : R) (n : nat) (ng : Z) : Prop :=
  0 <= originRel < 1 /\ (1 <= n)%nat /\ (1 <= ng)%Z /\ ((2 <= n)%nat -> range <= h / IZR ng).
Definition legal_decomposition (pk : packing) (inter : interaction) (div : axis -> nat) (ng : axis -> Z) (origin : vec) : Prop :=
  forall a, legal_axis (box_height (pk_box pk) a) (in_rangeRadius inter) (vget (absoluteToRelative (pk_box pk) origin) a) (div a) (ng a).
Definition narrow_axis (pk : packing) (inter : interaction) (div : axis -> nat) (ng : axis -> Z) (a : axis) : Prop :=
  too_narrow (box_height (pk_box pk) a) (in_rangeRadius inter) (in_totalRange inter) (div a) (ng a).

Definition valid_coords (div : axis -> nat) (c : axis -> nat) : Prop := forall a, (c a < div a)%nat.

(** Every particle in the box, the box itself legal. *)
Definition well_placed (pk : packing) : Prop :=
  constructed (pk_box pk) /\ forall p, In p (pk_parts pk) -> in_box (pk_box pk) (pt_pos p).

(** The largest number of domains, not more than [n], for which the axis is not too narrow. *)
Definition best_division (h range totalRange : R) (ng : Z) (n m : nat) : Prop :=
  (1 <= m <= n)%nat /\ ~ too_narrow h range totalRange m ng /\
  forall m', (m < m' <= n)%nat -> too_narrow h range totalRange m' ng.

(** ** Concurrent moves *)
Definition isometry (m : mat) : Prop := forall v, vnorm2 (mvec m v) = vnorm2 v.
(** The reach of the interaction centres which the ghost layer is made for. *)
Definition centres_reach (inter : interaction) : Prop :=
  forall c, In c (in_centres inter) -> 2 * vnorm c + in_rangeRadius inter <= in_totalRange inter.
(** A move of a particle of a domain: made by its thread, restricted to the active domain, with a proper rotation; a move which has
    been refused is not accepted. *)
Definition legal_plan (thread : nat) (ad : activeDomain) (particles : list nat) (pl : plan) : Prop :=
  In (pl_i pl) particles /\ pl_accept pl PosInf = false /\
  forall s, isometry (sh_rot s) ->
            match pl_op pl s with
            | DoTranslation th i _ inside _ => th = thread /\ i = pl_i pl /\ inside = Some (isInside ad)
            | DoRotation th i r _ => th = thread /\ i = pl_i pl /\ isometry r
            | DoMove th i _ r inside _ => th = thread /\ i = pl_i pl /\ inside = Some (isInside ad) /\ isometry r
            | _ => False
            end.
(** A worker about to start its loop over a domain with coordinates [c]. *)
Definition legal_worker (threads : nat) (d : decomposition) (c : axis -> nat) (w : worker) : Prop :=
  valid_coords (dd_div d) c /\ (wk_thread w < threads)%nat /\ wk_pending w = None /\
  exists ad l, getActiveDomainBounds d c = Some ad /\ getParticlesInRegion d c = Some l /\
    forall pl, In pl (wk_todo w) -> legal_plan (wk_thread w) ad l pl.
Definition finished (w : worker) : Prop := wk_todo w = [] /\ wk_pending w = None.
(** One domain after another: each worker does all it has to do (two steps for a move) before the next one starts. *)
Definition one_by_one (ws : list worker) : list nat :=
  flat_map (fun kw : nat * worker => repeat (fst kw) (2 * length (wk_todo (snd kw)))) (enumerate ws).
Definition different_domains (cs : list (axis -> nat)) : Prop :=
  forall k l c c', nth_error cs k = Some c -> nth_error cs l = Some c' -> k <> l -> exists a, c a <> c' a.
Definition rotated_properly (pk : packing) : Prop := forall s, In s (shapes_of pk) -> isometry (sh_rot s).
