(** The extended XYZ format, as its readers understand it: a line with the number of atoms, a line of pairs key=value or key="value", a line
    of words per atom; such frames follow one another. *)
From Coq Require Import Reals ZArith List Bool String.
From Verif Require Import TextModel LinesSpec GeomModel PbcModel RotModel RotSpec XyzModel OptModel.
Import ListNotations.
Local Open Scope list_scope.
Open Scope Z_scope.

(** Printed numbers: digits, signs, points, exponents, "inf" and "nan". *)
Definition numeral (s : list Z) : Prop :=
  s <> [] /\ List.Forall (fun c => is_digit c = true \/ In c (tx "+-.einfa")) s.

(** *** A reader *)
Record frame := Frame { fr_pairs : list (list Z * list Z); fr_atoms : list (list (list Z)) }.
Inductive state := Key (k : list Z) | Equals (k : list Z) | Bare (k v : list Z) | Quoted (k v : list Z).
(** The line of pairs, character by character. *)
Fixpoint pairs (st : state) (l : list Z) : option (list (list Z * list Z)) :=
  match l with
  | [] => match st with Key [] => Some [] | Equals k => Some [(k, [])] | Bare k v => Some [(k, v)] | _ => None end
  | c :: l' =>
    match st with
    | Key k => if Z.eqb c 61 then pairs (Equals k) l'
               else if is_space c then match k with [] => pairs (Key []) l' | _ => None end
               else pairs (Key (k ++ [c])) l'
    | Equals k => if Z.eqb c 34 then pairs (Quoted k []) l'
                  else if is_space c then r <- pairs (Key []) l' ;; Some ((k, []) :: r)
                  else pairs (Bare k [c]) l'
    | Bare k v => if is_space c then r <- pairs (Key []) l' ;; Some ((k, v) :: r) else pairs (Bare k (v ++ [c])) l'
    | Quoted k v => if Z.eqb c 34 then r <- pairs (Key []) l' ;; Some ((k, v) :: r) else pairs (Quoted k (v ++ [c])) l'
    end
  end.
(** The words of a line. *)
Definition word (w : list Z) : list (list Z) := match w with [] => [] | _ => [w] end.
Fixpoint words (w l : list Z) : list (list Z) :=
  match l with [] => word w | c :: l' => if is_space c then word w ++ words [] l' else words (w ++ [c]) l' end.
Fixpoint read_atoms (n : nat) (l : list Z) : option (list (list (list Z)) * list Z) :=
  match n with
  | O => Some ([], l)
  | S n' => a <- getline newline l ;; r <- read_atoms n' (snd a) ;; Some (words [] (fst a) :: fst r, snd r)
  end.
Definition read_frame (l : list Z) : option (frame * list Z) :=
  a <- getline newline l ;;
  n <- extract_size (fst a) ;;
  b <- getline newline (snd a) ;;
  ps <- pairs (Key []) (fst b) ;;
  r <- read_atoms (Z.to_nat (fst n)) (snd b) ;;
  Some (Frame ps (fst r), snd r).
(** All frames of a file. *)
Inductive frames : list Z -> list frame -> Prop :=
| F_end : frames [] []
| F_next l f rest fs : read_frame l = Some (f, rest) -> frames rest fs -> frames l (f :: fs).

(** *** What a frame is to contain *)

(** The matrix with the given columns. *)
Definition columns (u v w : vec) : mat := M33 (vx u) (vx v) (vx w) (vy u) (vy v) (vy w) (vz u) (vz v) (vz w).
Definition components (v : vec) : list R := [vx v; vy v; vz v].
(** The atom at the position of the shape, with a unit quaternion which rotates as its orientation does. *)
Definition atom_of (show : R -> list Z) (s : shape) (ws : list (list Z)) : Prop :=
  exists q, qnorm2 q = 1%R /\ (forall u, quat_act q u = mvec (sh_rot s) u) /\
    ws = tx "A" :: List.map show (components (sh_pos s)) ++ List.map show [qx q; qy q; qz q; qw q].
Definition frame_of (show : R -> list Z) (p : packing) (aux : list (list Z * list Z)) (f : frame) : Prop :=
  (exists u v w, pk_box p = columns u v w /\
     fr_pairs f = (tx "Lattice", joined space (List.map show (components u ++ components v ++ components w))) ::
                  (tx "Properties", tx "species:S:1:pos:R:3:orientation:R:4") :: aux) /\
  Forall2 (atom_of show) (pk_shapes p) (fr_atoms f).
(** Pairs which can be told apart again: no equality sign or white space in a key, no quotation mark or end of line in a value. *)
Definition plain_aux (aux : list (list Z * list Z)) : Prop :=
  List.Forall (fun e => List.Forall (fun c => is_space c = false /\ c <> 61) (fst e) /\ List.Forall (fun c => c <> 34 /\ c <> newline) (snd e)) aux.
(** Packings with orientations which are rotations. *)
Definition proper (p : packing) : Prop := List.Forall (fun s => rotation (sh_rot s)) (pk_shapes p) /\ Z.of_nat (List.length (pk_shapes p)) < 2 ^ 64.

(** *** Recorders *)
Definition proper_history (l : list (packing * Z)) : Prop := List.Forall (fun e => proper (fst e) /\ 0 <= snd e < 2 ^ 64) l.
Definition cycles_pair (cycle : Z) : list (list Z * list Z) := [(tx "cycles", decimal cycle)].
Definition history_frames (show : R -> list Z) (l : list (packing * Z)) (fs : list frame) : Prop :=
  Forall2 (fun e f => frame_of show (fst e) (cycles_pair (snd e)) f) l fs.
(** The last recorded cycle; 0 when nothing has been recorded. *)
Definition last_cycle (l : list (packing * Z)) : Z := last (List.map snd l) 0.
(** The texts of snapshots, one after another. *)
Inductive texts (show : R -> list Z) : list (packing * Z) -> list Z -> Prop :=
| T_nil : texts show [] []
| T_cons p cycle l w t : xyz_write show p (cycles_pair cycle) = Some w -> texts show l t -> texts show ((p, cycle) :: l) (w ++ t).
(** What is left in the file when a recorder is done with it. *)
Definition file_of (r : recorder) : option (list Z) := match rc_out r with Some s => Some (io_text s) | None => None end.
(** The second line of a frame is recognised by its beginning. *)
Definition headed (l : list Z) : Prop := exists r, l = tx "Lattice" ++ r.
