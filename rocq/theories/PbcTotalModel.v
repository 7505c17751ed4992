(** Closed forms of the three operations of [PeriodicBoundaryConditions] whose loops are modelled in PbcModel. The code runs
    loops; that they terminate with exactly these values for every input is proved in PbcProofs
    ([getCorrection_terminates], [getTranslation_terminates], [getDistance2_terminates]). The models of the packing and of
    the simulation use the closed forms. *)
From Coq Require Import Reals ZArith.
From Verif Require Import GeomModel BoxModel RFloorModel.
Open Scope R_scope.

(** Value of PeriodicBoundaryConditions.cpp:11-22. *)
Definition correction_rel (r : vec) : vec := vmake (fun a => IZR (- Rfl (vget r a))).
Definition correction (b : box) (p : vec) : vec := relativeToAbsolute b (correction_rel (absoluteToRelative b p)).
(** Value of PeriodicBoundaryConditions.cpp:24-36. *)
Definition trans_z (d : R) : Z := if Rlt_dec (1/2) d then (- Rce (d - 1/2))%Z
                                  else if Rlt_dec d (-1/2) then Rce (- d - 1/2) else 0%Z.
Definition translation (b : box) (p1 p2 : vec) : vec :=
  relativeToAbsolute b (vmake (fun a => IZR (trans_z (vget (absoluteToRelative b p2) a - vget (absoluteToRelative b p1) a)))).
(** Value of PeriodicBoundaryConditions.cpp:38-50. *)
Definition dist_z (d : R) : Z := if Rlt_dec (1/2) d then Rce (d - 1/2) else 0%Z.
Definition dist_rel (r1 r2 : vec) : vec :=
  vmake (fun a => Rabs (vget r2 a - vget r1 a) - IZR (dist_z (Rabs (vget r2 a - vget r1 a)))).
Definition distance2 (b : box) (p1 p2 : vec) : R :=
  vnorm2 (relativeToAbsolute b (dist_rel (absoluteToRelative b p1) (absoluteToRelative b p2))).
