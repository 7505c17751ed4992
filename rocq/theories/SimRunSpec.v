(** What a single cycle should do, and the states in which cycles are performed. *)
From Coq Require Import Reals ZArith List Bool.
From Verif Require Import GeomModel BoxModel BoxSpec PbcModel PackModel PackSpec DomModel DomSpec RotModel SimModel SimSpec.
Import ListNotations.
Open Scope nat_scope.

(** States in which cycles are performed: see [good_setting]; a packing in which overlaps are not counted has none. *)
Definition good_state (inter : interaction) (threads : nat) (s : sim) : Prop :=
  visited inter threads (sm_pk s) /\ pk_counting (sm_pk s) = sm_counted s /\ Forall good_sampler (sm_samplers s) /\
  length (sm_counters s) = length (sm_samplers s) /\ match sm_scaler s with Some step => (0 < step)%R | None => True end /\
  (forall a, 1 <= sm_div s a) /\ (num_domains (sm_div s) = 1 \/ (in_rangeRadius inter <= in_totalRange inter)%R /\ centres_reach inter) /\
  (sm_scaler s = None \/ in_convex inter = false) /\ (sm_counted s = false -> countTotalOverlaps (sm_pk s) inter false = Some 0).

(** How many moves of [n] particles a sampler makes in a cycle. *)
Definition wanted (n : nat) (x : sampler) : nat := match x with Flipping every _ => n / every | _ => n end.
Definition wanted_by_all (n : nat) (samplers : list sampler) : nat := list_sum (map (wanted n) samplers).

(** The box was to become [newBox], for which the number [u] was drawn: the packing [pk'] is the scaled one or the old one, according to the
    rule of Metropolis for the constant pressure. *)
Definition scaling_decided (inter : interaction) (u P T : R) (newBox : box) (pk : packing) (ok : bool) (pk' : packing) : Prop :=
  exists pk2 n0 n2 e0 e2, scaled_packing pk newBox pk2 /\
    countTotalOverlaps pk inter false = Some n0 /\ countTotalOverlaps pk2 inter false = Some n2 /\
    getTotalEnergy pk inter = Some e0 /\ getTotalEnergy pk2 inter = Some e2 /\
    (ok = true -> pk' = pk2) /\ (ok = false -> same_packing pk pk') /\
    (ok = true <-> match energy_change n0 n2 e0 e2 (pk_counting pk) with
                   | NegInf => True
                   | PosInf => False
                   | Fin dE => (u <= exp (npt_exponent (pk_size pk) P T (box_volume (pk_box pk)) (box_volume newBox) dE))%R
                   end).
(** A cycle without a division: all moves one after another, each with its own random number, then scaling. *)
Definition cycle_made (inter : interaction) (ch : chance) (s : sim) (log : cycle_log) (pk' : packing) : Prop :=
  exists pk1, moves_made inter (sm_T s) (sm_pk s) (map (fun k => dr_u (ch_draws ch k)) (seq 0 (length (cl_moves log)))) (cl_moves log) pk1 /\
    length (cl_moves log) = wanted_by_all (pk_size (sm_pk s)) (sm_samplers s) /\
    match sm_scaler s with
    | None => cl_scaled log = None /\ pk' = pk1
    | Some step => exists ok newBox, cl_scaled log = Some ok /\ ch_box ch step (pk_box (sm_pk s)) = Some newBox /\
        scaling_decided inter (ch_u ch) (sm_P s) (sm_T s) newBox pk1 ok pk'
    end.

Definition op_rotation (o : pack_op) : option mat :=
  match o with DoRotation _ _ r _ | DoMove _ _ _ r _ _ => Some r | _ => None end.
(** The largest angle by which a sampler turns particles; flips are always by pi. *)
Definition largest_angle (x : sampler) : option R :=
  match x with Rotation step => Some step | Rototranslation _ (Some r) _ _ => Some (Rmin r PI) | _ => None end.
(** The step of translations. *)
Definition translation_step (x : sampler) : option R :=
  match x with Translation step _ _ => Some step | Rototranslation step _ _ _ => Some step | _ => None end.
