(** [src/utils/Utils.cpp], [src/utils/Utils.h], [src/utils/Version.cpp] and [Version.h]: operations on texts, versions. Characters are codes 0 to
    127 ([std::isspace] is undefined for negative chars). *)
From Coq Require Import ZArith List Bool.
From Verif Require Import OptModel TextModel.
Import ListNotations.
Open Scope Z_scope.

(** Utils.cpp:21-35 *)
Definition ltrim (s : list Z) : list Z := skip_ws s.
Definition rtrim (s : list Z) : list Z := rev (skip_ws (rev s)).
Definition trim (s : list Z) : list Z := ltrim (rtrim s).

(** std::string::compare(0, ...) == 0 after the check of sizes; Utils.cpp:37-43 *)
Definition startsWith (s prefix : list Z) : bool := text_eqb (firstn (length prefix) s) prefix && Nat.leb (length prefix) (length s).
Definition endsWith (s suffix : list Z) : bool := text_eqb (skipn (length s - length suffix) s) suffix && Nat.leb (length suffix) (length s).

(** std::string::find from the beginning of [s]: the first position at which [search] stands; [pos] is added to it *)
Fixpoint find_from (search s : list Z) (pos : nat) : option nat :=
  if startsWith s search then Some pos else match s with [] => None | _ :: s' => find_from search s' (S pos) end.
Definition find (s search : list Z) (pos : nat) : option nat := if Nat.leb pos (length s) then find_from search (skipn pos s) pos else None.
(** Utils.cpp:45-52; [None]: the loop has not finished in [fuel] steps *)
Fixpoint replace_loop (fuel : nat) (search replace source : list Z) (pos : nat) : option (list Z) :=
  match fuel with
  | O => None
  | S fuel' =>
    match find source search pos with
    | None => Some source
    | Some p => replace_loop fuel' search replace (firstn p source ++ replace ++ skipn (p + length search) source) (p + length replace)
    end
  end.
Definition replaceAll (fuel : nat) (source search replace : list Z) : option (list Z) := replace_loop fuel search replace source 0.

(** while (std::getline(in, line, delim)): all the lines *)
Fixpoint getlines (delim : Z) (s : list Z) : list (list Z) :=
  match s with
  | [] => []
  | c :: s' => if Z.eqb c delim then [] :: getlines delim s' else match getlines delim s' with [] => [[c]] | x :: xs => (c :: x) :: xs end
  end.
(** Utils.cpp:64-79 *)
Definition explode (s : list Z) (delim : Z) : list (list Z) :=
  match s with
  | [] => []
  | _ => getlines delim s ++ (if Z.eqb (last s 0) delim then [[]] else [])
  end.
(** Utils.h:30-46 *)
Definition implode (parts : list (list Z)) (delim : list Z) : list Z :=
  match parts with
  | [] => []
  | _ => let out := flat_map (fun p => p ++ delim) parts in firstn (length out - length delim) out
  end.

(** Version.h:18-25 *)
Record version := Version { v_major : Z; v_minor : Z; v_patch : Z }.
(** Version.cpp:31-44; std::stoul is [extract_size]; [None]: failed precondition or exception *)
Definition parseToken (token : list Z) : option Z :=
  let t := trim token in
  match t with
  | [] => None
  | _ => match extract_size t with Some (n, []) => Some n | _ => None end
  end.
(** Version.cpp:12-26 *)
Definition parse_version (s : list Z) : option version :=
  match explode s 46 with
  | [a; b; c] => p <- parseToken c ;; (m <- parseToken b ;; (j <- parseToken a ;; Some (Version j m p)))
  | [a; b] => m <- parseToken b ;; (j <- parseToken a ;; Some (Version j m 0))
  | [a] => j <- parseToken a ;; Some (Version j 0 0)
  | _ => None
  end.
(** Version.cpp:46-54 *)
Definition version_str (v : version) : list Z := decimal (v_major v) ++ 46 :: decimal (v_minor v) ++ 46 :: decimal (v_patch v).
(** Version.h:74-96: comparison of tuples *)
Definition version_eqb (a b : version) : bool := Z.eqb (v_major a) (v_major b) && Z.eqb (v_minor a) (v_minor b) && Z.eqb (v_patch a) (v_patch b).
Definition version_ltb (a b : version) : bool :=
  Z.ltb (v_major a) (v_major b) || (negb (Z.ltb (v_major b) (v_major a)) &&
    (Z.ltb (v_minor a) (v_minor b) || (negb (Z.ltb (v_minor b) (v_minor a)) && Z.ltb (v_patch a) (v_patch b)))).
Definition version_gtb (a b : version) : bool := version_ltb b a.
Definition version_leb (a b : version) : bool := negb (version_ltb b a).
Definition version_geb (a b : version) : bool := negb (version_ltb a b).
