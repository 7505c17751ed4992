(** [src/core/io/RamtrjIO.{h,cpp}], [RamtrjRecorder.{h,cpp}], [RamtrjPlayer.{h,cpp}] and [TruncatedPlayer.{h,cpp}].

    Simplifications:
    - a double is its 64 bits, as is a size_t; the machine is little-endian with 8-byte doubles and size_t's;
    - conversion of orientations to Euler angles and back is not done here (see RotModel, C57): a shape is given by its position and
      Euler angles;
    - a recorder produces commands for the file it has open; a player has the content of its file;
    - delivering a snapshot to the packing ([Packing::reset]) is modelled as returning it. *)
From Coq Require Import ZArith List Bool.
From Verif Require Import OptModel.
Import ListNotations.
Open Scope Z_scope.

(** Both bytes (0 to 255) and words (0 to 2^64 - 1) are numbers. *)
Notation byte := Z (only parsing).
Notation word := Z (only parsing).
Definition W64 : Z := 2 ^ 64.
Definition wrap (x : Z) : Z := x mod W64.

(** *** Files *)

(** Commands given to a stream, byte by byte; Put overwrites at the end or inside. *)
Inductive io := Seek (pos : nat) | SeekEnd | Put (b : byte).
Record file := File { fl_bytes : list byte; fl_pos : nat }.
Fixpoint put_at (pos : nat) (b : byte) (l : list byte) : list byte :=
  match pos, l with
  | O, [] => [b]
  | O, _ :: l' => b :: l'
  | S p, [] => 0 :: put_at p b []
  | S p, x :: l' => x :: put_at p b l'
  end.
Definition io_step (f : file) (c : io) : file :=
  match c with
  | Seek p => File (fl_bytes f) p
  | SeekEnd => File (fl_bytes f) (length (fl_bytes f))
  | Put b => File (put_at (fl_pos f) b (fl_bytes f)) (S (fl_pos f))
  end.
Definition perform (cs : list io) (f : file) : file := fold_left io_step cs f.

(** std::istream::read of [n] bytes at a position; [None]: fewer are left. *)
Definition read_at (pos n : nat) (l : list byte) : option (list byte) :=
  let r := firstn n (skipn pos l) in if Nat.eqb (length r) n then Some r else None.

(** *** Numbers and blocks *)

(** The object representation of a 64-bit number, and back. *)
Fixpoint bytes_of (n : nat) (w : Z) : list byte :=
  match n with O => [] | S n' => w mod 256 :: bytes_of n' (w / 256) end.
Fixpoint of_bytes (l : list byte) : Z :=
  match l with [] => 0 | b :: l' => b + 256 * of_bytes l' end.
Definition word_bytes (w : word) : list byte := bytes_of 8 w.
Definition words_bytes (ws : list word) : list byte := concat (map word_bytes ws).
(** Reading an array of [n] words; the new position. *)
Fixpoint read_words (n : nat) (pos : nat) (l : list byte) : option (list word * nat) :=
  match n with
  | O => Some ([], pos)
  | S n' => bs <- read_at pos 8 l ;; (r <- read_words n' (pos + 8) l ;; Some (of_bytes bs :: fst r, snd r))
  end.

(** *** RamtrjIO *)

(** RamtrjIO.h:34-41. *)
Record header := Header { hd_major : byte; hd_minor : byte; hd_particles : word; hd_snapshots : word; hd_step : word }.
(** "RAMTRJ\n" *)
Definition magic : list byte := [82; 65; 77; 84; 82; 74; 10].
(** RamtrjIO.cpp:41-49. *)
Definition writeHeader (h : header) : list byte :=
  magic ++ [hd_minor h; hd_major h] ++ word_bytes (hd_particles h) ++ word_bytes (hd_snapshots h) ++ word_bytes (hd_step h).
Fixpoint bytes_eqb (a b : list byte) : bool :=
  match a, b with [], [] => true | x :: a', y :: b' => Z.eqb x y && bytes_eqb a' b' | _, _ => false end.
(** RamtrjIO.cpp:16-39, from the beginning of the file; [None]: RamtrjException. *)
Definition readHeader (l : list byte) : option header :=
  m <- read_at 0 7 l ;;
  if negb (bytes_eqb m magic) then None
  else
    mn <- read_at 7 1 l ;;
    (mj <- read_at 8 1 l ;;
     let minor := nth 0 mn 0 in
     let major := nth 0 mj 0 in
     if negb (Z.eqb major 1 && Z.leb minor 1) then None
     else
       n <- read_words 1 9 l ;;
       (k <- read_words 1 (snd n) l ;;
        (s <- read_words 1 (snd k) l ;;
         let h := Header major minor (nth 0 (fst n) 0) (nth 0 (fst k) 0) (nth 0 (fst s) 0) in
         if Z.leb 1 major && Z.leb 1 minor && negb (Z.ltb 0 (hd_particles h) && Z.ltb 0 (hd_step h)) then None else Some h))).
(** RamtrjIO.cpp:98-101. *)
Definition getHeaderSize : Z := 33.
(** RamtrjIO.cpp:103-106. *)
Definition getSnapshotSize (h : header) : Z := wrap (72 + hd_particles h * 48).
(** RamtrjIO.cpp:92-96; the conversion to the signed streamoff. *)
Definition to_signed (x : Z) : Z := if Z.ltb x (W64 / 2) then x else x - W64.
Definition streamoffForSnapshot (h : header) (k : Z) : Z := to_signed (wrap (getHeaderSize + wrap (k * getSnapshotSize h))).

(** A snapshot: 9 numbers of the box, positions and Euler angles of shapes. *)
Record snapshot := Snapshot { sn_box : list word; sn_shapes : list (list word * list word) }.
(** RamtrjIO.cpp:58-63. *)
Definition writeBox (ws : list word) : list byte := words_bytes ws.
(** RamtrjIO.cpp:77-90. *)
Definition writeShape (s : list word * list word) : list byte := words_bytes (fst s) ++ words_bytes (snd s).
(** RamtrjIO.cpp:51-56. *)
Definition readBox (pos : nat) (l : list byte) : option (list word * nat) := read_words 9 pos l.
(** RamtrjIO.cpp:65-75. *)
Definition readShape (pos : nat) (l : list byte) : option ((list word * list word) * nat) :=
  p <- read_words 3 pos l ;; (a <- read_words 3 (snd p) l ;; Some ((fst p, fst a), snd a)).
Fixpoint readShapes (n pos : nat) (l : list byte) : option (list (list word * list word) * nat) :=
  match n with
  | O => Some ([], pos)
  | S n' => s <- readShape pos l ;; (r <- readShapes n' (snd s) l ;; Some (fst s :: fst r, snd r))
  end.

(** *** RamtrjRecorder *)

(** [rc_open]: the stream is not null. *)
Record recorder := Recorder { rc_particles : word; rc_step : word; rc_snapshots : word; rc_open : bool }.
Definition puts (bs : list byte) : list io := map Put bs.
(** The constructor, RamtrjRecorder.cpp:8-38, for a file with the given content; [None]: an exception or a failed precondition, with
    nothing written (the destructor is not called for an object which was not constructed). *)
Definition newRecorder (content : list byte) (particles step : word) (append : bool) : option (recorder * list io) :=
  if negb (Z.ltb 0 particles && Z.ltb 0 step) then None
  else if append then
    h <- readHeader content ;;
    if negb (Z.eqb particles (hd_particles h) && Z.eqb step (hd_step h)) then None
    else if negb (Z.eqb (Z.of_nat (length content)) (streamoffForSnapshot h (hd_snapshots h))) then None
    else Some (Recorder particles step (hd_snapshots h) true, [SeekEnd])
  else if negb (Nat.eqb (length content) 0) then None
  else Some (Recorder particles step 0 true, SeekEnd :: puts (writeHeader (Header 1 1 particles 0 step))).
(** RamtrjRecorder.cpp:44-55; [None]: failed precondition. *)
Definition recordSnapshot (s : snapshot) (cycle : word) (r : recorder) : option (recorder * list io) :=
  if negb (rc_open r && Z.ltb 0 cycle && Z.eqb cycle (wrap (wrap (rc_snapshots r + 1) * rc_step r))
           && Z.eqb (Z.of_nat (length (sn_shapes s))) (rc_particles r)) then None
  else Some (Recorder (rc_particles r) (rc_step r) (wrap (rc_snapshots r + 1)) true,
             puts (writeBox (sn_box s)) ++ concat (map (fun sh => puts (writeShape sh)) (sn_shapes s))).
(** RamtrjRecorder.cpp:57-69; also called by the destructor. *)
Definition close0 (r : recorder) : recorder * list io :=
  if rc_open r then
    (Recorder (rc_particles r) (rc_step r) (rc_snapshots r) false,
     Seek 0 :: puts (writeHeader (Header 1 1 (rc_particles r) (rc_snapshots r) (rc_step r))))
  else (r, []).
(** RamtrjRecorder.h:50. *)
Definition getLastCycleNumber (r : recorder) : word := wrap (rc_snapshots r * rc_step r).
(** Snapshots recorded one after another. *)
Fixpoint recordAll (ss : list (snapshot * word)) (r : recorder) : option (recorder * list io) :=
  match ss with
  | [] => Some (r, [])
  | s :: ss' => a <- recordSnapshot (fst s) (snd s) r ;; (b <- recordAll ss' (fst a) ;; Some (fst b, snd a ++ snd b))
  end.
(** Everything a process does with a file: the constructor, snapshots, closing. *)
Definition recording (content : list byte) (particles step : word) (append : bool) (ss : list (snapshot * word)) : option (list io) :=
  r <- newRecorder content particles step append ;;
  (a <- recordAll ss (fst r) ;; Some (snd r ++ snd a ++ snd (close0 (fst a)))).

(** *** RamtrjPlayer *)

(** [py_open]: the stream is not null. *)
Record player := Player { py_header : header; py_content : list byte; py_pos : Z; py_current : word; py_open : bool }.
(** The result of AutoFix, RamtrjPlayer.h:29-36; the message only says whether fixing failed. *)
Record autofix := AutoFix {
  af_expected : word; af_needed : bool; af_successful : bool; af_headerSnapshots : word; af_inferred : word; af_remainder : word;
  af_perSnapshot : word }.
(** RamtrjPlayer.cpp:147-149 (a positive number is expected). *)
Definition newAutoFix (n : word) : autofix := AutoFix n false true 0 0 0 0.
(** RamtrjPlayer.cpp:119-123. *)
Definition fresh_player (h : header) (content : list byte) : player := Player h content getHeaderSize 0 true.
(** RamtrjPlayer.cpp:11-20. *)
Definition openPlayer (content : list byte) : option player :=
  h <- readHeader content ;;
  if negb (Z.eqb (Z.of_nat (length content)) (streamoffForSnapshot h (hd_snapshots h))) then None else Some (fresh_player h content).
(** RamtrjPlayer.cpp:151-171 and 22-45: the report, and the player if there was no exception. *)
Definition reportError (f : autofix) : autofix :=
  AutoFix (af_expected f) false false (af_headerSnapshots f) (af_inferred f) (af_remainder f) (af_perSnapshot f).
Definition reportNofix (h : header) (f : autofix) : autofix :=
  AutoFix (af_expected f) false true (hd_snapshots h) (hd_snapshots h) (af_remainder f) (getSnapshotSize h).
Definition set_snapshots (h : header) (k : word) : header := Header (hd_major h) (hd_minor h) (hd_particles h) k (hd_step h).
Definition tryFixing (h : header) (snapshotBytes : Z) (f : autofix) : autofix * option header :=
  if Z.eqb (hd_particles h) 0 || Z.eqb (hd_step h) 0 then (reportError f, None)
  else if negb (Z.eqb (hd_particles h) (af_expected f)) then (reportError f, None)
  else
    let size := getSnapshotSize h in
    (AutoFix (af_expected f) true true (af_headerSnapshots f) (snapshotBytes / size) (snapshotBytes mod size) size,
     Some (set_snapshots h (snapshotBytes / size))).
Definition openFixing (content : list byte) (f : autofix) : autofix * option player :=
  match readHeader content with
  | None => (reportError f, None)
  | Some h =>
    let size := Z.of_nat (length content) in
    if Z.eqb size (streamoffForSnapshot h (hd_snapshots h)) then (reportNofix h f, Some (fresh_player h content))
    else match tryFixing h (wrap (size - getHeaderSize)) f with
         | (f', Some h') => (f', Some (fresh_player h' content))
         | (f', None) => (f', None)
         end
  end.

(** RamtrjPlayer.cpp:47-52. *)
Definition hasNext (p : player) : bool := py_open p && Z.ltb (py_current p) (hd_snapshots (py_header p)).
(** What a call gives: a snapshot, nothing, an exception (or a failed precondition, the player being left as it was). *)
Inductive reply := Shown (s : snapshot) | Done | Refused.
(** RamtrjPlayer.cpp:53-66; [size]: of the packing. A failing read is undefined here, as it leaves the stream in a failed state. *)
Definition nextSnapshot (size : word) (p : player) : option (player * reply) :=
  if negb (hasNext p && Z.eqb size (hd_particles (py_header p))) then Some (p, Refused)
  else
    b <- readBox (Z.to_nat (py_pos p)) (py_content p) ;;
    (s <- readShapes (Z.to_nat size) (snd b) (py_content p) ;;
     Some (Player (py_header p) (py_content p) (Z.of_nat (snd s)) (wrap (py_current p + 1)) (py_open p), Shown (Snapshot (fst b) (fst s)))).
(** RamtrjPlayer.cpp:72-85; [None]: division by zero. *)
Definition jumpToSnapshot (size cycle : word) (p : player) : option (player * reply) :=
  let h := py_header p in
  if negb (py_open p && Z.ltb 0 (hd_snapshots h)) then Some (p, Refused)
  else if Z.eqb (hd_step h) 0 then None
  else if negb (Z.eqb (cycle mod hd_step h) 0) then Some (p, Refused)
  else
    let k := cycle / hd_step h in
    if negb (Z.ltb 0 k && Z.leb k (hd_snapshots h)) then Some (p, Refused)
    else if negb (Z.eqb size (hd_particles h)) then
      (* the precondition of nextSnapshot fails after the position has been changed *)
      Some (Player h (py_content p) (streamoffForSnapshot h (k - 1)) (k - 1) (py_open p), Refused)
    else nextSnapshot size (Player h (py_content p) (streamoffForSnapshot h (k - 1)) (k - 1) (py_open p)).
(** RamtrjPlayer.h:90-92. *)
Definition getTotalCycles (p : player) : word := wrap (hd_step (py_header p) * hd_snapshots (py_header p)).
(** RamtrjPlayer.cpp:68-70. *)
Definition lastSnapshot (size : word) (p : player) : option (player * reply) :=
  jumpToSnapshot size (wrap (hd_snapshots (py_header p) * hd_step (py_header p))) p.
(** RamtrjPlayer.cpp:87-89. *)
Definition getCurrentSnapshotCycles (p : player) : word := wrap (py_current p * hd_step (py_header p)).
(** RamtrjPlayer.cpp:119-123; [None]: null pointer. *)
Definition resetPlayer (p : player) : option (player * reply) :=
  if py_open p then Some (fresh_player (py_header p) (py_content p), Done) else None.
(** RamtrjPlayer.cpp:91-93. *)
Definition closePlayer (p : player) : player * reply := (Player (py_header p) (py_content p) (py_pos p) (py_current p) false, Done).

(** *** Navigation *)
Inductive nav := Next | Last | Jump (cycle : word) | Reset | Close.
Definition navigate (size : word) (n : nav) (p : player) : option (player * reply) :=
  match n with
  | Next => nextSnapshot size p
  | Last => lastSnapshot size p
  | Jump c => jumpToSnapshot size c p
  | Reset => resetPlayer p
  | Close => Some (closePlayer p)
  end.
(** What is seen after each call: the reply, hasNext, getCurrentSnapshotCycles, getTotalCycles. *)
Definition view : Type := reply * bool * word * word.
Fixpoint play (size : word) (ns : list nav) (p : player) : option (list view) :=
  match ns with
  | [] => Some []
  | n :: ns' =>
    r <- navigate size n p ;;
    (vs <- play size ns' (fst r) ;; Some ((snd r, hasNext (fst r), getCurrentSnapshotCycles (fst r), getTotalCycles (fst r)) :: vs))
  end.

(** *** TruncatedPlayer, over a RamtrjPlayer *)
Record truncated := Truncated { tp_player : player; tp_total : word }.
(** TruncatedPlayer.cpp:9-16; [None]: failed precondition, division by zero or null pointer. *)
Definition newTruncated (p : player) (total : word) : option truncated :=
  if negb (Z.leb total (getTotalCycles p)) then None
  else if Z.eqb (hd_step (py_header p)) 0 then None
  else if negb (Z.eqb (total mod hd_step (py_header p)) 0) then None
  else r <- resetPlayer p ;; Some (Truncated (fst r) total).
(** TruncatedPlayer.cpp:18-23. *)
Definition hasNextT (t : truncated) : bool := hasNext (tp_player t) && Z.ltb (getCurrentSnapshotCycles (tp_player t)) (tp_total t).
Definition lift (t : truncated) (r : player * reply) : truncated * reply := (Truncated (fst r) (tp_total t), snd r).
(** TruncatedPlayer.cpp:25-42 and TruncatedPlayer.h:31-35. *)
Definition navigateT (size : word) (n : nav) (t : truncated) : option (truncated * reply) :=
  let p := tp_player t in
  match n with
  | Next =>
    if Z.leb (tp_total t) (getCurrentSnapshotCycles p) then Some (t, Refused)
    else r <- nextSnapshot size p ;; Some (lift t r)
  | Last => r <- jumpToSnapshot size (tp_total t) p ;; Some (lift t r)
  | Jump c => if Z.ltb (tp_total t) c then Some (t, Refused) else r <- jumpToSnapshot size c p ;; Some (lift t r)
  | Reset => r <- resetPlayer p ;; Some (lift t r)
  | Close => Some (lift t (closePlayer p))
  end.
Fixpoint playT (size : word) (ns : list nav) (t : truncated) : option (list view) :=
  match ns with
  | [] => Some []
  | n :: ns' =>
    r <- navigateT size n t ;;
    (vs <- playT size ns' (fst r) ;; Some ((snd r, hasNextT (fst r), getCurrentSnapshotCycles (tp_player (fst r)), tp_total (fst r)) :: vs))
  end.
