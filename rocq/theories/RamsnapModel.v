(** [src/core/io/RamsnapWriter.cpp] and [RamsnapReader.cpp].

    Printing and scanning of doubles is a parameter: [show] is [operator<<] with max_digits10 digits, [scan] is [operator>>]. A packing is given
    by the 9 elements of the box matrix and, for each shape, 3 elements of the position and 9 of the orientation. *)
From Coq Require Import ZArith List Bool.
From Verif Require Import OptModel TextModel.
Import ListNotations.
Open Scope Z_scope.

Section ramsnap.
Variables (D : Type) (show : D -> list Z) (scan : list Z -> option (D * list Z)) (zero : D) (hasVolume : list D -> bool).

(** RamsnapWriter.cpp:18-26; [None]: a key with white space, failed precondition. *)
Definition storeAuxInfo (m : list (list Z * list Z)) : option (list Z) :=
  if forallb (fun e => negb (existsb is_space (fst e))) m
  then Some (decimal (Z.of_nat (length m)) ++ newline :: flat_map (fun e => fst e ++ space :: snd e ++ [newline]) m)
  else None.
(** Numbers separated by spaces. *)
Fixpoint spaced (ds : list D) : list Z :=
  match ds with [] => [] | [d] => show d | d :: ds' => show d ++ space :: spaced ds' end.
(** RamsnapWriter.cpp:28-33. *)
Definition storeBox (box : list D) : list Z := spaced box ++ [newline].
(** RamsnapWriter.cpp:35-48: 8 spaces between position and orientation. *)
Definition storeShape (s : list D * list D) : list Z := spaced (fst s) ++ repeat space 8 ++ spaced (snd s) ++ [newline].
Definition storeShapes (ss : list (list D * list D)) : list Z := decimal (Z.of_nat (length ss)) ++ newline :: flat_map storeShape ss.
(** RamsnapWriter.cpp:8-16. *)
Definition write (m : list (list Z * list Z)) (box : list D) (ss : list (list D * list D)) : option (list Z) :=
  a <- storeAuxInfo m ;; Some (a ++ storeBox box ++ storeShapes ss).

(** RamsnapReader.cpp:46-61; the loop of [n] steps. *)
Fixpoint restoreEntries (n : nat) (m : list (list Z * list Z)) (l : list Z) : option (list (list Z * list Z) * list Z) :=
  match n with
  | O => Some (m, l)
  | S n' =>
    k <- extract_word l ;;
    (v <- getline newline (skip_ws (snd k)) ;;
     restoreEntries n' (map_set (fst k) (fst v) m) (snd v))
  end.
Definition restoreAuxInfo (l : list Z) : option (list (list Z * list Z) * list Z) :=
  s <- extract_size l ;; restoreEntries (Z.to_nat (fst s)) [] (snd s).
(** [n] numbers extracted one after another. *)
Fixpoint scans (n : nat) (l : list Z) : option (list D * list Z) :=
  match n with
  | O => Some ([], l)
  | S n' => d <- scan l ;; (r <- scans n' (snd d) ;; Some (fst d :: fst r, snd r))
  end.
(** RamsnapReader.cpp:63-92. *)
Definition restoreBox (l : list Z) : option (list D * list Z) :=
  line <- getline newline l ;;
  (old <- scans 3 (fst line) ;;
   (box <- match skip_ws (snd old), fst old with
           | [], [x; y; z] => Some [x; zero; zero; zero; y; zero; zero; zero; z]
           | _, _ => r <- scans 6 (snd old) ;; Some (fst old ++ fst r)
           end ;;
    if hasVolume box then Some (box, snd line) else None)).
(** RamsnapReader.cpp:25-44 (memory for the shapes is assumed to be available). *)
Fixpoint restoreShapesLoop (n : nat) (l : list Z) : option (list (list D * list D) * list Z) :=
  match n with
  | O => Some ([], l)
  | S n' => p <- scans 3 l ;; (o <- scans 9 (snd p) ;; (r <- restoreShapesLoop n' (snd o) ;; Some ((fst p, fst o) :: fst r, snd r)))
  end.
Definition restoreShapes (l : list Z) : option (list (list D * list D) * list Z) :=
  s <- extract_size l ;; restoreShapesLoop (Z.to_nat (fst s)) (snd s).
(** RamsnapReader.cpp:15-23. *)
Definition read (l : list Z) : option (list (list Z * list Z) * list D * list (list D * list D)) :=
  a <- restoreAuxInfo l ;; (b <- restoreBox (snd a) ;; (s <- restoreShapes (snd b) ;; Some (fst a, fst b, fst s))).
End ramsnap.
