(** What a RAMTRJ file contains, and what it means to play it. *)
From Coq Require Import ZArith List Bool.
From Verif Require Import OptModel TrjModel.
Import ListNotations.
Open Scope Z_scope.

Definition is_byte (b : Z) : Prop := 0 <= b < 256.
Definition is_word64 (w : Z) : Prop := 0 <= w < 2 ^ 64.
(** 8 bytes, the least significant one first. *)
Definition value (l : list Z) : Z := fold_right (fun b v => b + 256 * v) 0 l.
Definition stored (w : Z) (l : list Z) : Prop := length l = 8%nat /\ Forall is_byte l /\ value l = w.

(** ** Contents *)
Definition good_snapshot (n : Z) (s : snapshot) : Prop :=
  length (sn_box s) = 9%nat /\ Forall is_word64 (sn_box s) /\ Z.of_nat (length (sn_shapes s)) = n /\
  Forall (fun sh => length (fst sh) = 3%nat /\ length (snd sh) = 3%nat /\ Forall is_word64 (fst sh) /\ Forall is_word64 (snd sh)) (sn_shapes s).
(** Numbers in the order in which they are stored. *)
Definition numbers (s : snapshot) : list Z := sn_box s ++ flat_map (fun sh => fst sh ++ snd sh) (sn_shapes s).
Definition snapshot_bytes (s : snapshot) (l : list Z) : Prop := exists pieces, l = concat pieces /\ Forall2 stored (numbers s) pieces.
Definition data_bytes (ss : list snapshot) (l : list Z) : Prop := exists pieces, l = concat pieces /\ Forall2 snapshot_bytes ss pieces.
(** "RAMTRJ", new line, minor and major version, numbers of particles and snapshots, cycle step. *)
Definition header_bytes (n k step : Z) (l : list Z) : Prop :=
  exists a b c, l = [82; 65; 77; 84; 82; 74; 10; 1; 1] ++ a ++ b ++ c /\ stored n a /\ stored k b /\ stored step c.
Definition trajectory (n step : Z) (ss : list snapshot) (l : list Z) : Prop :=
  exists h d, l = h ++ d /\ header_bytes n (Z.of_nat (length ss)) step h /\ data_bytes ss d.

(** What is needed for the 64-bit arithmetic. *)
Definition size_of (n : Z) : Z := 72 + 48 * n.
Definition fits (n step k : Z) : Prop := 0 < n /\ 0 < step /\ n < 2 ^ 64 /\ step < 2 ^ 64 /\ 33 + k * size_of n < 2 ^ 63 /\ k * step < 2 ^ 64.
(** Snapshots with cycle numbers after [k] earlier ones. *)
Fixpoint numbered (step k : Z) (ss : list snapshot) : list (snapshot * Z) :=
  match ss with [] => [] | s :: ss' => (s, (k + 1) * step) :: numbered step (k + 1) ss' end.

(** ** Playing *)

(** The number of snapshots shown so far (or the number of the one jumped to), whether it is open. *)
Record shelf := Shelf { sf_all : list snapshot; sf_step : Z; sf_shown : nat; sf_open : bool }.
Definition sf_count (s : shelf) : Z := Z.of_nat (length (sf_all s)).
Definition show (k : nat) (s : shelf) : shelf * reply :=
  match nth_error (sf_all s) k with
  | Some x => if sf_open s then (Shelf (sf_all s) (sf_step s) (S k) true, Shown x) else (s, Refused)
  | None => (s, Refused)
  end.
Definition shelf_move (n : nav) (s : shelf) : option (shelf * reply) :=
  match n with
  | Next => Some (show (sf_shown s) s)
  | Last => match sf_all s with [] => Some (s, Refused) | _ => Some (show (length (sf_all s) - 1) s) end
  | Jump c => if Z.eqb (c mod sf_step s) 0 && Z.ltb 0 c then Some (show (Z.to_nat (c / sf_step s - 1)) s) else Some (s, Refused)
  | Reset => if sf_open s then Some (Shelf (sf_all s) (sf_step s) 0 true, Done) else None
  | Close => Some (Shelf (sf_all s) (sf_step s) (sf_shown s) false, Done)
  end.
(** The views: the reply, whether there is a next snapshot, the cycle of the last one shown, all cycles. *)
Definition shelf_view (r : reply) (s : shelf) : view :=
  (r, sf_open s && Z.ltb (Z.of_nat (sf_shown s)) (sf_count s), Z.of_nat (sf_shown s) * sf_step s, sf_count s * sf_step s).
Fixpoint leaf (ns : list nav) (s : shelf) : option (list view) :=
  match ns with
  | [] => Some []
  | n :: ns' => r <- shelf_move n s ;; (vs <- leaf ns' (fst r) ;; Some (shelf_view (snd r) (fst r) :: vs))
  end.
(** Cycle numbers given to calls are 64-bit numbers. *)
Definition legal_nav (n : nav) : Prop := match n with Jump c => is_word64 c | _ => True end.
(** The player [p] shows the snapshots [ss], whatever is done with it. *)
Definition plays (n step : Z) (ss : list snapshot) (p : player) : Prop :=
  hd_particles (py_header p) = n /\ hd_step (py_header p) = step /\ hd_snapshots (py_header p) = Z.of_nat (length ss) /\
  forall ns, Forall legal_nav ns -> play n ns p = leaf ns (Shelf ss step 0 true).

(** ** Interrupted recordings *)

(** What is on the disk if the process dies after [k] commands. *)
Definition left_after (k : nat) (cs : list io) (content : list Z) : list Z := fl_bytes (perform (firstn k cs) (File content 0)).
(** A session starts with no file, or appends to a complete trajectory. *)
Definition session (n step : Z) (append : bool) (old : list snapshot) (content : list Z) : Prop :=
  if append then trajectory n step old content else old = [] /\ content = [].
(** The file [l] holds a header, the snapshots [complete] and part of the next snapshot of [all]. *)
Definition partly (n : Z) (all : list snapshot) (j : nat) (rest l : list Z) : Prop :=
  (j <= length all)%nat /\ Z.of_nat (length rest) < size_of n /\
  (exists h d, l = h ++ d ++ rest /\ length h = 33%nat /\ data_bytes (firstn j all) d) /\
  match nth_error all j with Some s => exists more, snapshot_bytes s (rest ++ more) | None => rest = [] end.
(** No reset after closing. *)
Fixpoint orderly (ns : list nav) : bool :=
  match ns with
  | [] => true
  | Close :: ns' => forallb (fun n => match n with Reset => false | _ => true end) ns'
  | _ :: ns' => orderly ns'
  end.
