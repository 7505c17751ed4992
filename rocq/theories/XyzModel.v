(** Extended XYZ output: [src/core/io/XYZWriter.cpp], [src/core/io/XYZRecorder.cpp], the second half of
    [src/frontend/SimulationRecorderFactory.cpp]. Lines are read backwards as in LinesModel, quaternions are those of RotModel. *)
From Coq Require Import Reals ZArith List Bool Ascii String.
From Verif Require Import TextModel LinesModel StringsModel GeomModel PbcModel RotModel OptModel.
Import ListNotations.
Local Open Scope list_scope.
Open Scope Z_scope.

Definition tx (s : string) : list Z := List.map (fun a => Z.of_N (N_of_ascii a)) (list_ascii_of_string s).
Definition quote : Z := 34.

(** What the writer asks of a packing: the matrix of the box, whose columns are the box vectors, and the shapes. *)
Record packing := Packing { pk_box : mat; pk_shapes : list shape }.

(** Results: [Invalid] is a ValidationException (or a file which cannot be opened), [Precondition] a failed Expects or Assert. *)
Inductive outcome (A : Type) := Done (a : A) | Invalid | Precondition.
Arguments Done {A}. Arguments Invalid {A}. Arguments Precondition {A}.

(** *** The writer; [show] is operator<< of a double. *)
Section writer.
Variable show : R -> list Z.

(** XYZWriter.cpp:34-36 *)
Definition hasWhitespace (s : list Z) : bool := existsb is_space s.
(** XYZWriter.cpp:32-44; [None]: the failed Assert of line 37 (what has been written before is not kept). *)
Fixpoint storeAuxInfo (aux : list (list Z * list Z)) : option (list Z) :=
  match aux with
  | [] => Some []
  | (key, value) :: aux' =>
    if hasWhitespace key then None
    else
      let v := if hasWhitespace value then quote :: value ++ [quote] else value in
      rest <- storeAuxInfo aux' ;; Some (space :: key ++ tx "=" ++ v ++ rest)
  end.
(** XYZWriter.cpp:16-30 *)
Definition storeHeader (p : packing) (aux : list (list Z * list Z)) : option (list Z) :=
  let b := pk_box p in
  info <- storeAuxInfo aux ;;
  Some (decimal (Z.of_nat (List.length (pk_shapes p))) ++ [newline] ++ tx "Lattice=""" ++
        show (m00 b) ++ [space] ++ show (m10 b) ++ [space] ++ show (m20 b) ++ [space] ++
        show (m01 b) ++ [space] ++ show (m11 b) ++ [space] ++ show (m21 b) ++ [space] ++
        show (m02 b) ++ [space] ++ show (m12 b) ++ [space] ++ show (m22 b) ++
        tx """ Properties=species:S:1:pos:R:3:orientation:R:4" ++ info ++ [newline]).
(** XYZWriter.cpp:47-54 *)
Definition storeShape (s : shape) : list Z :=
  let pos := sh_pos s in
  let quat := quaternionFromMatrix (sh_rot s) in
  tx "A " ++ show (vx pos) ++ [space] ++ show (vy pos) ++ [space] ++ show (vz pos) ++ [space] ++
  show (qx quat) ++ [space] ++ show (qy quat) ++ [space] ++ show (qz quat) ++ [space] ++ show (qw quat) ++ [newline].
(** XYZWriter.cpp:9-14 *)
Definition xyz_write (p : packing) (aux : list (list Z * list Z)) : option (list Z) :=
  h <- storeHeader p aux ;; Some (h ++ flat_map storeShape (pk_shapes p)).

(** *** Streams with a position for reading and one for writing. The positions of a std::stringstream are separate; a std::fstream has one
    position for both ([io_joint]), because std::basic_filebuf maintains a joint file position. *)
Record iostream := Io { io_text : list Z; io_get : nat; io_put : nat; io_joint : bool }.
Definition seekg (p : nat) (s : iostream) : iostream := Io (io_text s) p (if io_joint s then p else io_put s) (io_joint s).
Definition seekp (p : nat) (s : iostream) : iostream := Io (io_text s) (if io_joint s then p else io_get s) p (io_joint s).
Definition seekp_end (s : iostream) : iostream := seekp (List.length (io_text s)) s.
Definition seekg_end (s : iostream) : iostream := seekg (List.length (io_text s)) s.
(** Characters are written over those which follow the position for writing. *)
Definition put (w : list Z) (s : iostream) : iostream :=
  let p := io_put s in
  seekp (p + List.length w)%nat
        (Io (firstn p (io_text s) ++ w ++ skipn (p + List.length w) (io_text s)) (io_get s) p (io_joint s)).

(** *** The recorder *)
(** [rc_out]: [None] is the null pointer, after [close]. *)
Record recorder := Recorder { rc_out : option iostream; rc_last : Z }.

(** XYZRecorder.cpp:34-56 from the stream as read backwards: the number and the position in the stream. [None]: the exception of line 55. More
    lines than characters cannot be read, so [fuel] above the length is not exhausted. *)
Fixpoint find_loop (fuel : nat) (s : stream) : option (Z * nat) :=
  match fuel with
  | O => None
  | S fuel' =>
    let r := getlineBackwards newline s in
    if sm_fail (fst r) then None
    else
      let line := snd r in
      if negb (startsWith line (tx "Lattice")) then find_loop fuel' (fst r)
      else
        pos <- find line (tx "cycles=") 0 ;;
        n <- extract_size (skipn (pos + 7) line) ;;
        Some (fst n, sm_pos (fst r))
  end.
Definition findLastCycleNumber (s : iostream) : option (Z * iostream) :=
  let s1 := seekg_end s in
  r <- find_loop (2 + List.length (io_text s1)) (Stream (io_text s1) (io_get s1) false) ;;
  Some (fst r, seekg (snd r) s1).
(** XYZRecorder.cpp:20-32 *)
Definition xyz_recorder (out : option iostream) (append : bool) : outcome recorder :=
  match out with
  | None => Precondition
  | Some s =>
    let s1 := seekp_end s in
    if append then
      if negb (Nat.eqb (io_put s1) 0) then
        match findLastCycleNumber s1 with Some (n, s2) => Done (Recorder (Some s2) n) | None => Invalid end
      else Done (Recorder (Some s1) 0)
    else if Nat.eqb (io_put s1) 0 then Done (Recorder (Some s1) 0) else Invalid
  end.
(** XYZRecorder.cpp:11-18; a failed Assert of the writer would be [Precondition] too *)
Definition recordSnapshot (p : packing) (cycle : Z) (r : recorder) : outcome recorder :=
  match rc_out r with
  | None => Precondition
  | Some s =>
    match xyz_write p [(tx "cycles", decimal cycle)] with
    | Some w => Done (Recorder (Some (put w s)) cycle)
    | None => Precondition
    end
  end.
(** XYZRecorder.h:40 *)
Definition close (r : recorder) : recorder := Recorder None (rc_last r).

(** SimulationRecorderFactory.cpp:33-52: a file ([None]: there is none) is opened and given to the recorder; a missing file can be created
    only when it is truncated. *)
Definition xyz_create (file : option (list Z)) (isContinuation : bool) : outcome recorder :=
  if isContinuation then
    match file with
    | None => Invalid
    | Some t => xyz_recorder (Some (Io t (List.length t) (List.length t) true)) true
    end
  else xyz_recorder (Some (Io [] 0 0 true)) false.

Definition bind_outcome {A B} (x : outcome A) (f : A -> outcome B) : outcome B :=
  match x with Done a => f a | Invalid => Invalid | Precondition => Precondition end.
(** Simulation.cpp:150, 179 and 266: snapshots recorded one after another. *)
Fixpoint record_all (l : list (packing * Z)) (r : recorder) : outcome recorder :=
  match l with [] => Done r | (p, cycle) :: l' => bind_outcome (recordSnapshot p cycle r) (record_all l') end.
End writer.
