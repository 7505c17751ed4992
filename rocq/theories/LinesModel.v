(** [src/utils/GetlineBackwards.cpp]: a seekable stream with a reading position. The end-of-file flag is not kept: the function clears it
    (line 21, and [seekg] does so too) and never looks at it otherwise. *)
From Coq Require Import ZArith List Bool.
From Verif Require Import OptModel TextModel.
Import ListNotations.
Open Scope Z_scope.

Record stream := Stream { sm_text : list Z; sm_pos : nat; sm_fail : bool }.
(** seekg(0, std::ios::end) *)
Definition seek_end (l : list Z) : stream := Stream l (length l) false.

(** GetlineBackwards.cpp:24-32, from the position [p] > 0. *)
Fixpoint search_back (delim : Z) (p : nat) (l : list Z) : nat :=
  match p with
  | O => O
  | S q => if Nat.eqb q 0 || (match nth_error l q with Some c => Z.eqb c delim | None => false end) then q else search_back delim q l
  end.
(** GetlineBackwards.cpp:8-41: the stream afterwards and the line. *)
Definition getlineBackwards (delim : Z) (s : stream) : stream * list Z :=
  if sm_fail s then (s, [])
  else if Nat.eqb (sm_pos s) 0 then (Stream (sm_text s) (sm_pos s) true, [])
  else
    let l := sm_text s in
    let before := search_back delim (sm_pos s) l in
    let start := match nth_error l before with Some c => if Z.eqb c delim then S before else before | None => before end in
    let line := match skipn start l with [] => [] | rest => fst (take_line delim rest) end in
    (Stream l before false, line).
(** Called again and again; [None]: the stream is in the failed state. *)
Fixpoint backwards (delim : Z) (n : nat) (s : stream) : list (option (list Z)) :=
  match n with
  | O => []
  | S n' => let r := getlineBackwards delim s in (if sm_fail (fst r) then None else Some (snd r)) :: backwards delim n' (fst r)
  end.
