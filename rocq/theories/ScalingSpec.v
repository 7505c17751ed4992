(** How scaling directions are written, independently of the parser, and what a volume move does to a box. *)
From Coq Require Import ZArith Reals List Bool Permutation.
From Verif Require Import TextModel GeomModel BoxModel ScalingModel.
Import ListNotations.

(** A direction written freely, directions in round brackets, directions in square brackets. *)
Inductive piece := Free (a : axis) | Together (l : list axis) | Fixed (l : list axis).
Definition letter (a : axis) : Z := match a with AX => 120 | AY => 121 | AZ => 122 end%Z.
Definition written (p : piece) : text :=
  match p with
  | Free a => [letter a]
  | Together l => [40%Z] ++ map letter l ++ [41%Z]
  | Fixed l => [91%Z] ++ map letter l ++ [93%Z]
  end.
Definition axes (p : piece) : list axis := match p with Free a => [a] | Together l => l | Fixed l => l end.
(** Directions scaled together; empty brackets mean nothing. *)
Definition scaled (p : piece) : list (list axis) := match p with Free a => [[a]] | Together [] => [] | Together l => [l] | Fixed _ => [] end.
Definition render (ps : list piece) : text := flat_map written ps.
Definition all_axes (ps : list piece) : list axis := flat_map axes ps.
Definition groups (ps : list piece) : list (list axis) := flat_map scaled ps.
(** An alternative of the scaler consists of given directions. *)
Definition consists (l : list axis) (m : mask) : Prop := forall a, mask_get m a = true <-> In a l.
(** Names of directions known to the input file: name and groups. *)
Definition named : list (text * list (list axis)) :=
  [([105; 115; 111; 116; 114; 111; 112; 105; 99]%Z, [[AX; AY; AZ]]);
   ([97; 110; 105; 115; 111; 116; 114; 111; 112; 105; 99; 32; 120]%Z, [[AX]; [AY; AZ]]);
   ([97; 110; 105; 115; 111; 116; 114; 111; 112; 105; 99; 32; 121]%Z, [[AY]; [AZ; AX]]);
   ([97; 110; 105; 115; 111; 116; 114; 111; 112; 105; 99; 32; 122]%Z, [[AZ]; [AX; AY]]);
   ([97; 110; 105; 115; 111; 116; 114; 111; 112; 105; 99; 32; 120; 121; 122]%Z, [[AX]; [AY]; [AZ]])].

(** Which step is applied to a side: when scaled independently, only sides of a single chosen alternative move and the first random step is used;
    otherwise all of them do and each has its own step. *)
Definition stepped (d : direction) (independent : bool) (choice : nat) (steps : nat -> R) (a : axis) (u : R) : Prop :=
  if independent && Nat.ltb 1 (length d)
  then exists m, nth_error d choice = Some m /\ mask_get m a = true /\ u = steps 0%nat
  else exists k m, nth_error d k = Some m /\ mask_get m a = true /\ u = steps k.
(** A random index of an alternative is one of them. *)
Definition chosen (d : direction) (choice : nat) : Prop := (choice < length d)%nat.
Open Scope R_scope.
Definition is_orthogonal (b : box) : Prop :=
  vdot (box_side b AX) (box_side b AY) = 0 /\ vdot (box_side b AY) (box_side b AZ) = 0 /\ vdot (box_side b AZ) (box_side b AX) = 0.
(** A move of the box by an anisotropic scaler, where the configuration spells out [s]. *)
Definition anisotropic_move (sampler : factor_sampler) (s : text) (independent : bool) (choice : nat) (steps : nat -> R) (b : box) : option box :=
  match scalingDirection s with
  | None => None
  | Some d => match make_anisotropic sampler d independent with
              | None => None
              | Some scaler => adapter_update (fun h => sampleScalingFactors scaler h choice steps) b
              end
  end.
(** A move of the box by delta_v, where the random change of the volume is [deltaV]. *)
Definition delta_move (deltaV : R) (b : box) : option box := adapter_update (fun h => Some (delta_factors h deltaV)) b.
Definition axis_dec (a b : axis) : {a = b} + {a <> b} := ltac:(decide equality).
