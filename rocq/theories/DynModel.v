(** [src/core/dynamic_parameters]: parameters which change with the cycle number. A parameter is a function of the cycle and the total number of
    cycles; [None]: a failed precondition. Cycles (size_t) are integers from 0 to [size_max]; double: real numbers. *)
From Coq Require Import Reals ZArith List Bool.
Import ListNotations.
Open Scope Z_scope.

Definition size_max : Z := 2 ^ 64 - 1.
(** static conversion from size_t to long *)
Definition as_long (n : Z) : Z := (n + 2 ^ 63) mod 2 ^ 64 - 2 ^ 63.
Definition parameter := Z -> Z -> option R.
(** ConstantDynamicParameter.h:21-25 *)
Definition constant (value : R) : parameter := fun _ _ => Some value.
(** LinearDynamicParameter.h:23-27 *)
Definition linear (slope initial : R) : parameter := fun current _ => Some (initial + IZR current * slope)%R.
(** ExponentialDynamicParameter.h:25-29 *)
Definition exponential (initial rate : R) : parameter := fun current _ => Some (initial * exp (rate * IZR current))%R.
(** ShiftedDynamicParameter.cpp:11-40. [-cycleShift] for the smallest long is undefined behaviour, which is not modelled. *)
Definition shifted (cycleShift : Z) (p : parameter) : parameter := fun current total =>
  if 0 <? cycleShift then
    if negb (cycleShift <=? current) then None else if negb (cycleShift <=? total) then None else p (current - cycleShift) (total - cycleShift)
  else
    let shift := - cycleShift in
    if negb (current <=? size_max - shift) then None
    else let newTotal := if size_max - shift <? total then size_max else total + shift in p (current + shift) newTotal.
(** std::is_sorted with the first elements compared *)
Fixpoint is_sorted (l : list (Z * parameter)) : bool := match l with x :: ((y :: _) as l') => negb (fst y <? fst x) && is_sorted l' | _ => true end.
(** std::upper_bound, in terms of its result: elements before it and those from it on *)
Fixpoint upper_bound (c : Z) (l : list (Z * parameter)) : list (Z * parameter) * list (Z * parameter) :=
  match l with [] => ([], []) | x :: l' => if c <? fst x then ([], l) else let r := upper_bound c l' in (x :: fst r, snd r) end.
(** PiecewiseDynamicParameter.cpp:12-23 *)
Definition piecewise (l : list (Z * parameter)) : option (list (Z * parameter)) :=
  match l with [] => None | x :: _ => if negb (fst x =? 0) then None else if negb (is_sorted l) then None else Some (map (fun u => (fst u, shifted (as_long (fst u)) (snd u))) l) end.
(** PiecewiseDynamicParameter.cpp:25-38 *)
Definition piecewise_value (updaters : list (Z * parameter)) : parameter := fun current total =>
  if negb (current <=? total) then None
  else if negb (fst (last updaters (0, constant 0)) <=? total) then None
  else let r := upper_bound current updaters in
       let end_ := match snd r with [] => total | n :: _ => fst n end in
       match rev (fst r) with [] => None | u :: _ => snd u current end_ end.
