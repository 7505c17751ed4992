(** Statistics of a sample. *)
From Coq Require Import Reals List.
Import ListNotations.
Open Scope R_scope.

Definition total (xs : list R) : R := fold_right Rplus 0 xs.
Definition mean (xs : list R) : R := total xs / INR (length xs).
(** Unbiased variance of the population, and the standard error of the mean. *)
Definition sample_variance (xs : list R) : R := total (map (fun x => (x - mean xs) * (x - mean xs)) xs) / (INR (length xs) - 1).
Definition standard_error (xs : list R) : R := sqrt (sample_variance xs / INR (length xs)).
