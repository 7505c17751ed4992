From Coq Require Import Reals ZArith List Bool.
From Verif Require Import GeomModel BoxModel PbcModel PbcSpec BoxSpec RFloorModel PackSpec HistModel HistSpec CorrModel.
Import ListNotations.
Local Open Scope R_scope.

(** The focal point of the i-th particle, and the vector which joins those of the i-th and j-th one, through the boundary if it is shorter. *)
Definition focal (point : vec) (sn : snapshot) (i : nat) : vec := let s := nth i (sn_shapes sn) (vzero, mid) in vadd (fst s) (mvec (snd s) point).
Definition joining (point : vec) (sn : snapshot) (i j : nat) : vec :=
  vsub (vadd (focal point sn j) (sn_translation sn (focal point sn i) (focal point sn j))) (focal point sn i).
(** The wave vector of the family of layers with given Miller indices. *)
Definition wave (b : box) (h k l : Z) (w : vec) : Prop :=
  vdot w (box_side b AX) = 2 * PI * IZR h /\ vdot w (box_side b AY) = 2 * PI * IZR k /\ vdot w (box_side b AZ) = 2 * PI * IZR l.
(** The phase of the sum of waves exp(i k r) over all particles. *)
Definition phase (w point : vec) (sn : snapshot) (t : R) : Prop :=
  - PI < t <= PI /\ exists r, 0 <= r /\ (r = 0 -> t = 0) /\
    Rsum (fun i => cos (vdot w (focal point sn i))) (seq 0 (length (sn_shapes sn))) = r * cos t /\
    Rsum (fun i => sin (vdot w (focal point sn i))) (seq 0 (length (sn_shapes sn))) = r * sin t.
(** The distance vector of the i-th and j-th particle: the joining vector, its component perpendicular to a face of the box, or its component in
    the plane of layers if both ends are nearest to the same layer. *)
Inductive separated (point : vec) (sn : snapshot) (i j : nat) : binning -> vec -> Prop :=
| Sep_radial : separated point sn i j Radial (joining point sn i j)
| Sep_linear a v : vcross (box_face (sn_box sn) a) v = vzero -> vdot (box_face (sn_box sn) a) (vsub (joining point sn i j) v) = 0 -> separated point sn i j (Linear a) v
| Sep_layer h k l w t v : wave (sn_box sn) h k l w -> phase w point sn t ->
    Rround ((vdot w (focal point sn i) - t) / (2 * PI)) = Rround ((vdot w (vadd (focal point sn i) (joining point sn i j)) - t) / (2 * PI)) ->
    vdot w v = 0 -> vcross w (vsub (joining point sn i j) v) = vzero -> separated point sn i j (Layerwise h k l) v.
Definition legal_binning (b : binning) : Prop := match b with Layerwise h k l => (h, k, l) <> (0, 0, 0)%Z | _ => True end.
Definition legal_snapshot (sn : snapshot) : Prop := constructed (sn_box sn) /\ sn_shapes sn <> [].
(** Pairs of different particles (or all pairs) whose distance is in the k-th bin of [d]. *)
Definition distinct_in_bin (point : vec) (b : binning) (d : dim) (k : nat) (sn : snapshot) (x : nat * nat * vec) : Prop :=
  let '(i, j, v) := x in (i < j < length (sn_shapes sn))%nat /\ separated point sn i j b v /\ in_bin d k (vnorm v).
Definition any_in_bin (point : vec) (b : binning) (d : dim) (k : nat) (sn : snapshot) (x : nat * nat * vec) : Prop :=
  let '(i, j, v) := x in (i <= j < length (sn_shapes sn))%nat /\ separated point sn i j b v /\ in_bin d k (vnorm v).
(** Volume in which the distance is between [r1] and [r2]: a spherical shell, a slab of the box - at one side -, a cylindrical shell in one layer. *)
Inductive shell (sn : snapshot) (r1 r2 : R) : binning -> R -> Prop :=
| Sh_radial : shell sn r1 r2 Radial (4 / 3 * PI * (r2 ^ 3 - r1 ^ 3))
| Sh_linear a : shell sn r1 r2 (Linear a) ((r2 - r1) * vnorm (box_face (sn_box sn) a))
| Sh_layer h k l w : wave (sn_box sn) h k l w -> shell sn r1 r2 (Layerwise h k l) (PI * (r2 ^ 2 - r1 ^ 2) * (2 * PI / vnorm w)).
(** Values of correlation functions of a pair. *)
Definition axis_of (ax : vec) (sn : snapshot) (i : nat) : vec := mvec (snd (nth i (sn_shapes sn) (vzero, mid))) ax.
Definition pair_value (f : correlation) (ax : vec) (sn : snapshot) (x : nat * nat * vec) : option R :=
  let '(i, j, v) := x in let a := axis_of ax sn i in let b := axis_of ax sn j in
  match f with
  | S110 => Some (vdot a b)
  | S220 => Some ((3 * (vdot a b) ^ 2 - 1) / 2)
  | S221 => if Req_EM_T (vnorm v) 0 then None else Some (vdot (vcross a b) v / vnorm v * vdot a b)
  | AxesAngle => Some (acos (Rabs (vdot a b)) / PI * 180)
  end.
(** The density of pairs: the number of other particles around a particle, [n] pairs in all, relative to that in [V] at the mean density. *)
Definition relative_density (sn : snapshot) (n : nat) (V : R) : R :=
  let N := INR (length (sn_shapes sn)) in (2 * INR n / N) / (N / box_volume (sn_box sn) * V).
(** The mean of values, unless there are none or one of them is not a number. *)
Definition total (l : list (option R)) : option R := fold_right (fun x s => match x, s with Some v, Some t => Some (v + t) | _, _ => None end) (Some 0) l.
Definition mean (l : list (option R)) : option R := match l, total l with _ :: _, Some t => Some (t / INR (length l)) | _, _ => None end.
(** Pairs of different particles whose distance is in the i-th bin of [d1], with the value of the function in the j-th bin of [d2]. *)
Definition valued_in_bin (point : vec) (b : binning) (f : correlation) (ax : vec) (d1 d2 : dim) (i j : nat) (sn : snapshot) (x : nat * nat * vec) : Prop :=
  distinct_in_bin point b d1 i sn x /\ exists y, pair_value f ax sn x = Some y /\ in_bin d2 j y.
(** Boundary conditions are periodic (the loop in PbcModel ends with the translation). *)
Definition periodic (sn : snapshot) : Prop := forall p q, terminates_with (fun fuel => getTranslation fuel (sn_box sn) p q) (sn_translation sn p q).
(** A snapshot with the order in which additions are made by threads. *)
Definition density_scheduled (d : dim) (b : binning) (point : vec) (threads : nat) (h : snapshot * schedule) : Prop :=
  legal_snapshot (fst h) /\ exists w, density_work (d_max d) b point (fst h) = Some w /\ scheduled threads w (snd h).
Definition averaged_scheduled (d : dim) (f : correlation) (ax : vec) (b : binning) (point : vec) (threads : nat) (h : snapshot * schedule) : Prop :=
  constructed (sn_box (fst h)) /\ exists w, averaged_work (d_max d) f ax b point (fst h) = Some w /\ scheduled threads w (snd h).
Definition evolution_scheduled (d1 d2 : dim) (f : correlation) (ax : vec) (b : binning) (point : vec) (threads : nat) (h : snapshot * schedule) : Prop := constructed (sn_box (fst h)) /\ exists w, evolution_work [d1; d2] f ax b point (fst h) = Some w /\ scheduled threads w (snd h).
(** The number of pairs and the volume of the k-th bin for one snapshot, and the sum of densities over snapshots. *)
Definition density_part (d : dim) (b : binning) (point : vec) (k : nat) (h : snapshot * schedule) (x : nat * R) : Prop :=
  counts (distinct_in_bin point b d k (fst h)) (fst x) /\ shell (fst h) (edge d k) (edge d (k + 1)) b (snd x).
Definition density_terms (history : list (snapshot * schedule)) (parts : list (nat * R)) : R := Rsum (fun x => relative_density (fst (fst x)) (fst (snd x)) (snd (snd x))) (combine history parts).
(** All pairs in the k-th bin for one snapshot, and values of the function for all of them and all snapshots. *)
Definition in_bin_list (point : vec) (b : binning) (d : dim) (k : nat) (h : snapshot * schedule) (l : list (nat * nat * vec)) : Prop := NoDup l /\ forall x, In x l <-> any_in_bin point b d k (fst h) x.
Definition all_values (f : correlation) (ax : vec) (history : list (snapshot * schedule)) (parts : list (list (nat * nat * vec))) : list (option R) :=
  concat (map (fun x => map (pair_value f ax (fst (fst x))) (snd x)) (combine history parts)).
(** Ranges of functions for axes of unit length. *)
Definition within (f : correlation) (a b : vec) (y : R) : Prop :=
  match f with S110 => -1 <= y <= 1 | S220 => -1 / 2 <= y <= 1 | S221 => -1 / 2 <= y <= 1 / 2 | AxesAngle => 0 <= y <= 90 /\ cos (y * PI / 180) = Rabs (vdot a b) end.
(** Every particle with itself, at distance zero. *)
Definition selves (n : nat) : list (nat * nat * vec) := map (fun i => (i, i, vzero)) (seq 0 n).
