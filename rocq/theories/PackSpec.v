(** What overlaps and energies of a packing are, independently of the neighbour grid, the cached positions of interaction
    centres and the order of summation. *)
From Coq Require Import Reals ZArith List Bool.
From Verif Require Import GeomModel BoxModel BoxSpec PbcModel PbcSpec PbcTotalModel PackModel.
Import ListNotations.
Open Scope R_scope.

(** ** Finite sums and counts over a described set *)
Definition Rsum {A} (w : A -> R) (l : list A) : R := fold_right (fun x s => w x + s) 0 l.
(** [s] is the sum of [w] over all elements satisfying [P]; only finitely many of them have a non-zero [w]. *)
Definition sums_to {A} (P : A -> Prop) (w : A -> R) (s : R) : Prop :=
  exists l, NoDup l /\ (forall x, In x l -> P x) /\ (forall x, P x -> w x <> 0 -> In x l) /\ s = Rsum w l.
(** Exactly [n] elements satisfy [P]. *)
Definition counts {A} (P : A -> Prop) (n : nat) : Prop :=
  exists l, NoDup l /\ (forall x, In x l <-> P x) /\ length l = n.

(** ** What is assumed of an interaction *)

(** The results depend on positions only through the displacement (with the periodic translation) and the squared distance
    which the boundary conditions return, do not depend on the order of the two particles and vanish beyond the range; an
    interaction without a hard part reports no overlaps. *)
Definition law (T : Type) := mat -> nat -> mat -> nat -> vec -> R -> T.
Definition follows {T} (f : vec -> mat -> nat -> vec -> mat -> nat -> bcond -> T) (l : law T) : Prop :=
  forall p1 r1 c1 p2 r2 c2 bc, f p1 r1 c1 p2 r2 c2 bc =
    l r1 c1 r2 c2 (vsub (vadd p2 (bc_translation bc p1 p2)) p1) (bc_distance2 bc p1 p2).
Definition symmetric_law {T} (l : law T) : Prop :=
  forall r1 c1 r2 c2 d s, l r1 c1 r2 c2 d s = l r2 c2 r1 c1 (vneg d) s.
Definition lawful (inter : interaction) (ov : law bool) (en : law R) : Prop :=
  follows (in_overlap inter) ov /\ symmetric_law ov /\ follows (in_energy inter) en /\ symmetric_law en /\
  0 < in_rangeRadius inter /\
  (forall r1 c1 r2 c2 d, ov r1 c1 r2 c2 d (vnorm2 d) = true -> vnorm d <= in_rangeRadius inter) /\
  (forall r1 c1 r2 c2 d, en r1 c1 r2 c2 d (vnorm2 d) <> 0 -> vnorm d <= in_rangeRadius inter) /\
  (in_hard inter = false -> (forall r1 c1 r2 c2 d s, ov r1 c1 r2 c2 d s = false) /\
                            (forall p r c o w, in_wall inter p r c o w = false)).

(** ** Sites and contacts *)

(** Interaction centres of a shape at the origin; no centres means a single one in the middle. *)
Definition site_vectors (inter : interaction) : list vec :=
  match in_centres inter with [] => [vzero] | cs => cs end.
Definition sites_no (inter : interaction) : nat := length (site_vectors inter).
Definition site_position (inter : interaction) (s : shape) (c : nat) : vec :=
  vadd (sh_pos s) (mvec (sh_rot s) (nth c (site_vectors inter) vzero)).

(** A pair of centres of two different particles, the second one taken in the periodic image moved by [ct_shift]. *)
Record contact := Contact { ct_i : nat; ct_ci : nat; ct_j : nat; ct_cj : nat; ct_shift : vec }.
Definition valid_contact (b : box) (n : nat) (inter : interaction) (c : contact) : Prop :=
  (ct_i c < ct_j c < n)%nat /\ (ct_ci c < sites_no inter)%nat /\ (ct_cj c < sites_no inter)%nat /\
  is_lattice_vector b (ct_shift c).
Definition contact_displacement (inter : interaction) (shapes : list shape) (c : contact) : vec :=
  vsub (vadd (site_position inter (nth (ct_j c) shapes no_shape) (ct_cj c)) (ct_shift c))
       (site_position inter (nth (ct_i c) shapes no_shape) (ct_ci c)).
Definition contact_value {T} (l : law T) (inter : interaction) (shapes : list shape) (c : contact) : T :=
  let d := contact_displacement inter shapes c in
  l (sh_rot (nth (ct_i c) shapes no_shape)) (ct_ci c) (sh_rot (nth (ct_j c) shapes no_shape)) (ct_cj c) d (vnorm2 d).

(** Overlapping pairs, including all periodic images. *)
Definition overlapping (ov : law bool) (b : box) (inter : interaction) (shapes : list shape) (c : contact) : Prop :=
  valid_contact b (length shapes) inter c /\ contact_value ov inter shapes c = true.
(** Total energy: all pairs including all periodic images. *)
Definition total_energy (en : law R) (b : box) (inter : interaction) (shapes : list shape) (e : R) : Prop :=
  sums_to (valid_contact b (length shapes) inter) (contact_value en inter shapes) e.

(** ** Observable configuration of a packing *)
Definition shapes_of (pk : packing) : list shape := map pt_shape (pk_parts pk).

(** ** Histories *)
Inductive pack_op :=
| DoTranslation (thread i : nat) (t : vec) (inside : option (vec -> bool)) (wanted : bool)
| DoRotation (thread i : nat) (r : mat) (wanted : bool)
| DoMove (thread i : nat) (t : vec) (r : mat) (inside : option (vec -> bool)) (wanted : bool)
| DoScaling (newBox : box) (wanted : bool)
| DoCounting (on : bool)
| DoWall (a : axis) (present : bool)
| DoRenormalize (thread : nat) (allowOverlaps : bool).

(** A move is accepted if the caller wants it and the reported energy change is not +infinity. *)
Definition passed (wanted : bool) (e : energy) : bool := wanted && match e with PosInf => false | _ => true end.
Definition try_op (inter : interaction) (o : pack_op) (pk : packing) : option (packing * energy) :=
  match o with
  | DoTranslation thread i t inside _ => tryTranslation thread i t inter inside pk
  | DoRotation thread i r _ => tryRotation thread i r inter pk
  | DoMove thread i t r inside _ => tryMove thread i t r inter inside pk
  | DoScaling b _ => tryScaling b inter pk
  | _ => None
  end.
Definition accept_op (o : pack_op) (pk : packing) : option packing :=
  match o with
  | DoTranslation thread _ _ _ _ => acceptTranslation thread pk
  | DoRotation thread _ _ _ => acceptRotation thread pk
  | DoMove thread _ _ _ _ _ => acceptMove thread pk
  | DoScaling _ _ => Some pk
  | _ => None
  end.
(** What a caller does with a move it does not accept: nothing, or reverting the scaling. *)
Definition reject_op (o : pack_op) (pk : packing) : packing :=
  match o with DoScaling _ _ => revertScaling pk | _ => pk end.
Definition op_wanted (o : pack_op) : bool :=
  match o with
  | DoTranslation _ _ _ _ w | DoRotation _ _ _ w | DoMove _ _ _ _ _ w | DoScaling _ w => w
  | _ => false
  end.
Definition run_op (inter : interaction) (o : pack_op) (pk : packing) : option packing :=
  match o with
  | DoCounting on => toggleOverlapCounting on inter pk
  | DoWall a present => Some (toggleWall a present pk)
  | DoRenormalize thread allow => option_map fst (renormalizeOrientations thread inter allow pk)
  | _ => match try_op inter o pk with
         | Some (pk1, e) => if passed (op_wanted o) e then accept_op o pk1 else Some (reject_op o pk1)
         | None => None
         end
  end.
Fixpoint run_ops (inter : interaction) (os : list pack_op) (pk : packing) : option packing :=
  match os with
  | [] => Some pk
  | o :: os' => match run_op inter o pk with Some pk' => run_ops inter os' pk' | None => None end
  end.

(** What the caller must respect. *)
Definition legal_pack_op (n threads : nat) (counting : bool) (o : pack_op) : Prop :=
  match o with
  | DoTranslation thread i _ _ _ | DoRotation thread i _ _ | DoMove thread i _ _ _ _ => (thread < threads)%nat /\ (i < n)%nat
  | DoScaling b _ => constructed b
  | DoCounting _ => True
  | DoWall _ _ => counting = false
  | DoRenormalize thread _ => (thread < threads)%nat
  end.
Definition counting_after (o : pack_op) (counting : bool) : bool := match o with DoCounting on => on | _ => counting end.
Fixpoint legal_pack_ops (n threads : nat) (counting : bool) (os : list pack_op) : Prop :=
  match os with
  | [] => True
  | o :: os' => legal_pack_op n threads counting o /\ legal_pack_ops n threads (counting_after o counting) os'
  end.
(** Shapes which may be put in a packing. The number of grid cells, which is at most 3375 per particle, has to fit size_t. *)
Definition legal_start (b : box) (inter : interaction) (shapes : list shape) : Prop :=
  constructed b /\ shapes <> [] /\ (forall s, In s shapes -> in_box b (sh_pos s)) /\
  (3375 * Z.of_nat (length shapes) < 2 ^ 64)%Z.
Definition reachable (threads : nat) (shapes : list shape) (b : box) (inter : interaction) (os : list pack_op) (pk : packing) : Prop :=
  legal_start b inter shapes /\ legal_pack_ops (length shapes) threads false os /\
  exists pk0, pk_new threads shapes b inter = Some pk0 /\ run_ops inter os pk0 = Some pk.

(** ** Boxes for which the minimal image is enough *)

(** At most one periodic image of a site is within the range. *)
Definition one_image (b : box) (inter : interaction) : Prop := forall a, 2 * in_rangeRadius inter < box_height b a.
(** The interaction may trust the squared distance (see C04) or does not use it. *)
Definition trusted_distance {T} (b : box) (l : law T) : Prop :=
  orthogonal_sides b \/ forall r1 c1 r2 c2 d s s', l r1 c1 r2 c2 d s = l r1 c1 r2 c2 d s'.

(** ** What a particle move does *)
Definition particle_move (o : pack_op) (thread i : nat) : Prop :=
  match o with
  | DoTranslation th j _ _ _ | DoRotation th j _ _ | DoMove th j _ _ _ _ => th = thread /\ j = i
  | _ => False
  end.
Definition moves_to (b : box) (o : pack_op) (s s' : shape) : Prop :=
  let moved_by t := in_box b (sh_pos s') /\ is_lattice_vector b (vsub (sh_pos s') (vadd (sh_pos s) t)) in
  match o with
  | DoTranslation _ _ t _ _ => moved_by t /\ sh_rot s' = sh_rot s
  | DoRotation _ _ r _ => sh_pos s' = sh_pos s /\ sh_rot s' = mmul r (sh_rot s)
  | DoMove _ _ t r _ _ => moved_by t /\ sh_rot s' = mmul r (sh_rot s)
  | _ => False
  end.
(** The active domain given to the move does not contain the position. *)
Definition outside_domain (o : pack_op) (p : vec) : Prop :=
  match o with
  | DoTranslation _ _ _ (Some f) _ | DoMove _ _ _ _ (Some f) _ => f p = false
  | _ => False
  end.
(** Everything a user can see, the neighbour grid included, is the same. *)
Definition same_packing (pk pk' : packing) : Prop :=
  pk_box pk' = pk_box pk /\ pk_parts pk' = pk_parts pk /\ pk_k pk' = pk_k pk /\ pk_range pk' = pk_range pk /\
  pk_ng pk' = pk_ng pk /\ pk_counting pk' = pk_counting pk /\ pk_overlaps pk' = pk_overlaps pk /\ pk_wall pk' = pk_wall pk.

(** Reported energy change, from numbers of overlaps and energies before and after. *)
Definition energy_change (n0 n1 : nat) (e0 e1 : R) (counting : bool) : energy :=
  if counting then (if Nat.ltb n1 n0 then NegInf else if Nat.ltb n0 n1 then PosInf else Fin (e1 - e0))
  else if Nat.ltb 0 n1 then PosInf else Fin (e1 - e0).
