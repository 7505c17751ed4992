(** [std::floor] on reals (used by several models). *)
From Coq Require Import Reals ZArith.
Open Scope R_scope.

(** The greatest integer not exceeding [r]. *)
Definition Rfl (r : R) : Z := (up r - 1)%Z.

(** [std::round]: half away from zero; the model is [floor(x + 1/2)] for [x >= 0] and [-floor(-x + 1/2)] otherwise. *)
Definition Rround (r : R) : Z :=
  if Rle_dec 0 r then Rfl (r + /2) else (- Rfl (- r + /2))%Z.

(** [std::ceil]. *)
Definition Rce (r : R) : Z := (- Rfl (- r))%Z.
